From Verif Require Import Base ListX Str ModelPath SpecPath.
Local Open Scope N_scope.

Lemma is_sep_spec b : reflect (separator b) (is_sep b).
Proof.
  unfold is_sep, separator. destruct (N.eqb_spec b slash), (N.eqb_spec b backslash); cbn; constructor; intuition.
Qed.

Lemma find_last_app_r P l x r : P x = true -> Forall (fun b => P b = false) r -> find_last P (l ++ x :: r) = Some (length l).
Proof.
  intros E F. assert (N : find_last P r = None).
  { clear -F. induction F as [|y r Ey F IH]; cbn; [reflexivity|]. now rewrite IH, Ey. }
  induction l as [|y l IH]; cbn; [now rewrite N, E|]. now rewrite IH.
Qed.
Lemma find_last_none P l : Forall (fun b => P b = false) l -> find_last P l = None.
Proof. induction 1 as [|y r Ey F IH]; cbn; [reflexivity|]. now rewrite IH, Ey. Qed.

Lemma all_seps_b l : all_seps l <-> Forall (fun b => is_sep b = true) l.
Proof. unfold all_seps. rewrite !Forall_forall. split; intros H x I; specialize (H x I); destruct (is_sep_spec x); congruence || tauto. Qed.
Lemma no_seps_b l : no_seps l <-> Forall (fun b => is_sep b = false) l.
Proof. unfold no_seps. rewrite !Forall_forall. split; intros H x I; specialize (H x I); destruct (is_sep_spec x); congruence || tauto. Qed.

(** Every string splits into [d ++ s ++ b ++ t] with [s], [t] separators only. *)
Definition parts (p d s b t : bytes) : Prop :=
  p = d ++ s ++ b ++ t /\ no_trailing_sep d /\ all_seps s /\ no_seps b /\ all_seps t /\
  (b = [] -> d = [] /\ s = []) /\ (s = [] -> d = []).

Lemma span_r (P : byte -> bool) l : exists a b, l = a ++ b /\ Forall (fun x => P x = true) b /\
  (a = [] \/ exists a' x, a = a' ++ [x] /\ P x = false).
Proof.
  induction l as [|x l IH] using rev_ind; [exists [], []; auto|].
  destruct (P x) eqn:E.
  - destruct IH as (a & b & -> & F & H). exists a, (b ++ [x]). split; [now rewrite app_assoc|]. split; [|exact H].
    apply Forall_app. split; auto.
  - exists (l ++ [x]), []. split; [now rewrite app_nil_r|]. split; [constructor|]. right. eauto.
Qed.

Lemma no_trailing_snoc l x : ~ separator x -> no_trailing_sep (l ++ [x]).
Proof. intros N l' b E. apply app_inj_tail in E. destruct E. now subst. Qed.
Lemma no_trailing_nil : no_trailing_sep [].
Proof. intros [|? ?] ? E; discriminate. Qed.

Lemma parts_exist p : exists d s b t, parts p d s b t.
Proof.
  destruct (span_r is_sep p) as (q & t & -> & Ft & Hq). apply all_seps_b in Ft.
  destruct Hq as [->|(q' & x & -> & Ex)].
  - exists [], [], [], t. repeat split; auto using no_trailing_nil; try constructor.
  - destruct (span_r (fun b => negb (is_sep b)) (q' ++ [x])) as (a & b & E & Fb & Ha).
    assert (Nb : no_seps b). { apply no_seps_b. eapply Forall_impl; [|exact Fb]. cbn. intros c. now rewrite negb_true_iff. }
    assert (Bne : b <> []).
    { intros ->. rewrite app_nil_r in E. destruct Ha as [->|(a' & y & -> & Ey)]; [now destruct q'|].
      apply app_inj_tail in E. destruct E as (_ & <-). rewrite Ex in Ey. discriminate. }
    rewrite E.
    destruct Ha as [->|(a' & y & -> & Ey)].
    + exists [], [], b, t. cbn. repeat split; auto using no_trailing_nil; try constructor; try tauto.
    + rewrite negb_false_iff in Ey.
      destruct (span_r is_sep (a' ++ [y])) as (d & s & E2 & Fs & Hd). apply all_seps_b in Fs.
      exists d, s, b, t. rewrite E2. repeat split; auto; try tauto.
      * now rewrite !app_assoc.
      * destruct Hd as [->|(d' & z & -> & Ez)]; [apply no_trailing_nil|]. apply no_trailing_snoc. destruct (is_sep_spec z); congruence.
      * intros ->. rewrite app_nil_r in E2. destruct Hd as [->|(d' & z & -> & Ez)]; [reflexivity|].
        exfalso. apply app_inj_tail in E2. destruct E2 as (_ & ->). congruence.
Qed.

Lemma snoc_case {A} (l : list A) : l = [] \/ exists l' x, l = l' ++ [x].
Proof. destruct l using rev_ind; eauto. Qed.

Lemma parts_names p d s b t : parts p d s b t ->
  basename p = b /\
  dirname p = (match b with [] => p | _ :: _ => match s with [] => [] | _ :: _ => match d with [] => s | _ :: _ => d end end end).
Proof.
  intros (-> & Nd & As & Nb & At & B0 & S0).
  apply no_seps_b in Nb. apply all_seps_b in As. apply all_seps_b in At.
  destruct (snoc_case b) as [->|(b' & x & ->)].
  - destruct (B0 eq_refl) as (-> & ->). cbn [app]. destruct t as [|y t]; [cbn; auto|].
    unfold basename, dirname.
    assert (E1 : find_last (fun b => negb (is_sep b)) (y :: t) = None).
    { apply find_last_none. eapply Forall_impl; [|exact At]. cbn. intros c ->. reflexivity. }
    assert (E2 : find_last is_sep (y :: t) = Some (length t)).
    { destruct (snoc_case (y :: t)) as [E|(t' & z & E)]; [discriminate|]. rewrite E in *.
      rewrite (find_last_app_r _ t' z []); [|apply Forall_app in At; destruct At as (_ & At); now inversion At|constructor].
      f_equal. apply (f_equal (@length _)) in E. rewrite app_length in E. cbn in E. lia. }
    rewrite E1. cbn [find_last_to]. rewrite E2. split; [|reflexivity].
    rewrite skipn_all2 by (cbn; lia). now rewrite firstn_nil.
  - assert (Xs : is_sep x = false). { apply Forall_app in Nb. destruct Nb as (_ & Nb). now inversion Nb. }
    assert (Nb' : Forall (fun c => is_sep c = false) b'). { apply Forall_app in Nb. tauto. }
    set (p := d ++ s ++ (b' ++ [x]) ++ t).
    assert (P1 : find_last (fun c => negb (is_sep c)) p = Some (length (d ++ s ++ b'))).
    { unfold p. replace (d ++ s ++ (b' ++ [x]) ++ t) with ((d ++ s ++ b') ++ x :: t) by (rewrite <- !app_assoc; reflexivity).
      apply find_last_app_r; [now rewrite Xs|]. eapply Forall_impl; [|exact At]. cbn. intros c ->. reflexivity. }
    assert (P2 : firstn (S (length (d ++ s ++ b'))) p = (d ++ s) ++ (b' ++ [x])).
    { unfold p. replace (d ++ s ++ (b' ++ [x]) ++ t) with ((d ++ s ++ b' ++ [x]) ++ t) by (rewrite <- !app_assoc; reflexivity).
      replace (S (length (d ++ s ++ b'))) with (length (d ++ s ++ b' ++ [x])) by (rewrite !app_length; cbn; lia).
      rewrite firstn_app_exact. now rewrite <- !app_assoc. }
    assert (Pne : exists y q, p = y :: q). { destruct p as [|y q] eqn:E; [|eauto]. exfalso. cbn in P2. symmetry in P2. apply app_eq_nil in P2. destruct P2 as (_ & P2). now destruct b'. }
    assert (BE : exists e f, b' ++ [x] = e :: f) by (destruct b'; cbn; eauto).
    destruct BE as (be & bf & BE).
    assert (P3 : find_last_to is_sep p (Some (length (d ++ s ++ b'))) = match s with [] => None | _ => Some (length (d ++ s) - 1)%nat end).
    { cbn [find_last_to]. rewrite P2. destruct (snoc_case s) as [->|(s' & y & ->)].
      - rewrite (S0 eq_refl). cbn [app]. now apply find_last_none.
      - replace ((d ++ s' ++ [y]) ++ b' ++ [x]) with ((d ++ s') ++ y :: (b' ++ [x])) by (rewrite <- !app_assoc; reflexivity).
        rewrite find_last_app_r; [|apply Forall_app in As; destruct As as (_ & As); now inversion As|assumption].
        destruct (s' ++ [y]) eqn:E; [now destruct s'|]. rewrite <- E. f_equal. rewrite !app_length. cbn. lia. }
    destruct (snoc_case s) as [->|(s' & y & Es)].
    + rewrite (S0 eq_refl) in *. cbn [app] in *. unfold basename, dirname.
      destruct Pne as (y & q & Pne). rewrite Pne. rewrite <- Pne. rewrite P1, P3. split; [now rewrite P2|].
      rewrite BE. reflexivity.
    + assert (Sne : exists e f, s = e :: f) by (rewrite Es; destruct s'; cbn; eauto). destruct Sne as (e & f & Se).
      assert (P3' : find_last_to is_sep p (Some (length (d ++ s ++ b'))) = Some (length (d ++ s) - 1)%nat) by (rewrite P3, Se; reflexivity).
      assert (Ls : (1 <= length s)%nat) by (rewrite Se; cbn; lia).
      unfold basename, dirname. destruct Pne as (y0 & q & Pne). rewrite Pne. rewrite <- Pne. rewrite P1, P3'.
      split.
      * replace (S (length (d ++ s) - 1)) with (length (d ++ s)) by (rewrite app_length; lia).
        unfold p. rewrite (app_assoc d s ((b' ++ [x]) ++ t)), skipn_app_exact.
        replace (length (d ++ s ++ b') - (length (d ++ s) - 1))%nat with (length (b' ++ [x])) by (rewrite !app_length; cbn; lia).
        apply firstn_app_exact.
      * rewrite BE, Se. rewrite <- Se. cbn [find_last_to].
        replace (S (length (d ++ s) - 1)) with (length (d ++ s)) by (rewrite app_length; lia).
        assert (F : firstn (length (d ++ s)) p = d ++ s). { unfold p. rewrite (app_assoc d s). apply firstn_app_exact. }
        rewrite F. destruct (snoc_case d) as [->|(d' & z & Ed)].
        -- cbn [app] in *. rewrite find_last_none; [reflexivity|]. eapply Forall_impl; [|exact As]. cbn. intros c ->. reflexivity.
        -- assert (Zs : is_sep z = false). { destruct (is_sep_spec z) as [Z|]; [|reflexivity]. exfalso. exact (Nd _ _ Ed Z). }
           rewrite Ed at 1. rewrite <- app_assoc. cbn [app]. rewrite find_last_app_r.
           ++ destruct d as [|d0 d1]; [now destruct d'|]. unfold p.
              replace (S (length d')) with (length (d0 :: d1)) by (rewrite Ed, app_length; cbn; lia). apply firstn_app_exact.
           ++ now rewrite Zs.
           ++ eapply Forall_impl; [|exact As]. cbn. intros c ->. reflexivity.
Qed.

Lemma last_char_snoc l x : last_char (l ++ [x]) = Some x.
Proof. unfold last_char. now rewrite rev_app_distr. Qed.

Lemma needs_sep_app a b : b <> [] -> needs_sep (a ++ b) = needs_sep b.
Proof.
  intros N. destruct (snoc_case b) as [->|(b' & x & ->)]; [congruence|].
  unfold needs_sep. now rewrite app_assoc, !last_char_snoc.
Qed.
