(** C53: quoting of command line arguments (common/remote_util.cc). *)
From Verif Require Import Base ListX SpecQuote ModelQuote.
Local Open Scope N_scope.
(** Byte strings. *)
Local Notation str := (list N).

Lemma win_run k x q n : win_word (repeat 92 k ++ x) q n = win_word x q (k + n).
Proof. revert n. induction k as [|k IH]; intros n; [reflexivity|]. cbn [repeat app win_word]. rewrite N.eqb_refl. rewrite IH. f_equal. lia. Qed.
Lemma replace_app c b x y : replace c b (x ++ y) = replace c b x ++ replace c b y.
Proof. unfold replace. apply flat_map_app. Qed.
Lemma replace_run k : replace 34 [92; 34] (repeat 92 k) = repeat 92 k.
Proof. induction k as [|k IH]; [reflexivity|]. change (92 :: replace 34 [92; 34] (repeat 92 k) = 92 :: repeat 92 k). now rewrite IH. Qed.
Lemma odd_double n : Nat.odd (n + n) = false.
Proof. replace (n + n)%nat with (2 * n)%nat by lia. rewrite Nat.odd_mul. reflexivity. Qed.
Lemma odd_double_S n : Nat.odd (S (n + n)) = true.
Proof. rewrite Nat.odd_succ. replace (n + n)%nat with (2 * n)%nat by lia. rewrite Nat.even_mul. reflexivity. Qed.
Lemma half_double n : ((n + n) / 2)%nat = n.
Proof. replace (n + n)%nat with (n * 2)%nat by lia. now apply Nat.div_mul. Qed.
Lemma half_double_S n : (S (n + n) / 2)%nat = n.
Proof. replace (S (n + n)) with (1 + n * 2)%nat by lia. rewrite Nat.div_add by lia. reflexivity. Qed.
Lemma run_S n (s : str) : repeat 92 n ++ 92 :: s = repeat 92 (S n) ++ s.
Proof. cbn. induction n as [|n IH]; [reflexivity|]. cbn. now rewrite IH. Qed.

Definition ends (t : str) : Prop := match t with [] => True | c :: _ => c <> 34 end.
Lemma win_escaped s : forall n t, ends t ->
  win_word (replace 34 [92; 34] (double_runs n s) ++ 34 :: t) true 0 =
  (repeat 92 n ++ s ++ fst (win_word t false 0), snd (win_word t false 0)).
Proof.
  induction s as [|c s IH]; intros n t E; cbn [double_runs].
  - rewrite replace_run, win_run. rewrite Nat.add_0_r. cbn [win_word]. cbn [N.eqb Pos.eqb]. rewrite odd_double, half_double.
    destruct t as [|d t]; [cbn; now rewrite app_nil_r|]. cbn in E. apply N.eqb_neq in E. rewrite E. cbn [andb negb app].
    destruct (win_word (d :: t) false 0); reflexivity.
  - destruct (c =? 92) eqn:C92.
    + apply N.eqb_eq in C92. subst c. rewrite IH by exact E. cbn [app]. now rewrite run_S.
    + destruct (c =? 34) eqn:C34.
      * apply N.eqb_eq in C34. subst c. rewrite replace_app, replace_run. change (34 :: double_runs 0 s) with ([34] ++ double_runs 0 s). rewrite replace_app.
        change (replace 34 [92; 34] [34]) with [92; 34]. rewrite <- app_assoc, win_run. cbn [app win_word N.eqb Pos.eqb]. rewrite Nat.add_0_r, odd_double_S, half_double_S.
        rewrite IH by exact E. reflexivity.
      * rewrite replace_app. assert (R : replace 34 [92; 34] (repeat 92 n) = repeat 92 n) by apply replace_run. rewrite R.
        change (c :: double_runs 0 s) with ([c] ++ double_runs 0 s). rewrite replace_app. cbn [replace flat_map]. rewrite C34. cbn [app]. rewrite <- app_assoc, win_run. cbn [app win_word]. rewrite C92, C34, Nat.add_0_r.
        cbn [negb]. rewrite andb_false_r. rewrite IH by exact E. reflexivity.
Qed.
Lemma win_quoted s t : ends t -> win_word (quote_for_windows s ++ t) false 0 = (s ++ fst (win_word t false 0), snd (win_word t false 0)).
Proof.
  intros E. unfold quote_for_windows. cbn [app]. rewrite <- app_assoc. cbn [app].
  pose proof (win_escaped s 0 t E) as H. remember (replace 34 [92; 34] (double_runs 0 s) ++ 34 :: t) as x eqn:X.
  assert (St : win_word (34 :: x) false 0 = win_word x true 0).
  { destruct x as [|d r]; [destruct (replace 34 [92; 34] (double_runs 0 s)); discriminate|].
    change (win_word (34 :: d :: r) false 0) with (let '(w, t0) := win_word (d :: r) true 0 in (w, t0)). now destruct (win_word (d :: r) true 0). }
  transitivity (win_word (34 :: x) false 0); [rewrite X; reflexivity|]. rewrite St. exact H.
Qed.

(** Every list of arguments -- with blanks, quotation marks and backslashes anywhere --
    is passed to a Windows program unchanged. *)
Lemma args_step fuel s w t : skip_blanks s = s -> s <> [] -> win_word s false 0 = (w, t) -> win_args_fuel (S fuel) s = w :: win_args_fuel fuel t.
Proof. intros A B C. cbn [win_args_fuel]. rewrite A. destruct s as [|c r]; [contradiction|]. now rewrite C. Qed.
Lemma args_end fuel : win_args_fuel fuel [] = [].
Proof. destruct fuel; reflexivity. Qed.
Lemma quote_nonempty s t : skip_blanks (quote_for_windows s ++ t) = quote_for_windows s ++ t /\ quote_for_windows s ++ t <> [].
Proof. split; [reflexivity|discriminate]. Qed.
Lemma win_args_spaced l : forall fuel, (length l <= fuel)%nat -> win_args_fuel fuel (spaced (map quote_for_windows l)) = l.
Proof.
  induction l as [|s l IH]; intros fuel F; [apply args_end|]. destruct fuel as [|fuel]; [cbn in F; lia|].
  destruct l as [|s2 l].
  - cbn [map spaced]. pose proof (win_quoted s [] I) as W. rewrite app_nil_r in W. change (win_word [] false 0) with (@nil N, @nil N) in W. cbn [fst snd] in W. rewrite app_nil_r in W.
    destruct (quote_nonempty s []) as (A & B). rewrite app_nil_r in A, B. rewrite (args_step fuel _ _ _ A B W). now rewrite args_end.
  - change (spaced (map quote_for_windows (s :: s2 :: l))) with (quote_for_windows s ++ 32 :: spaced (map quote_for_windows (s2 :: l))).
    set (t := spaced (map quote_for_windows (s2 :: l))) in *. pose proof (win_quoted s (32 :: t) ltac:(cbn; discriminate)) as W.
    change (win_word (32 :: t) false 0) with (@nil N, 32 :: t) in W. cbn [fst snd] in W. rewrite app_nil_r in W.
    destruct (quote_nonempty s (32 :: t)) as (A & B). rewrite (args_step fuel _ _ _ A B W). f_equal.
    assert (Sk2 : win_args_fuel fuel (32 :: t) = win_args_fuel fuel t) by (destruct fuel; reflexivity). rewrite Sk2. apply IH. cbn in F |- *. lia.
Qed.
Lemma quoted_length s : (0 < length (quote_for_windows s))%nat.
Proof. unfold quote_for_windows. cbn. lia. Qed.
Lemma spaced_length l : Forall (fun s => (0 < length s)%nat) l -> (length l <= length (spaced l))%nat.
Proof.
  induction 1 as [|s l H _ IH]; [reflexivity|]. destruct l as [|s2 l]; [cbn; lia|]. change (spaced (s :: s2 :: l)) with (s ++ 32 :: spaced (s2 :: l)). rewrite app_length. cbn [length] in *. lia.
Qed.
Theorem C53_windows_arguments : forall args, win_args (spaced (map quote_for_windows args)) = args.
Proof.
  intros args. apply win_args_spaced. apply Nat.le_le_succ_r. rewrite <- (map_length quote_for_windows args). apply spaced_length. apply Forall_forall. intros x I. apply in_map_iff in I. destruct I as (y & <- & _). apply quoted_length.
Qed.
(** As in scp's host:destination. *)
Theorem C53_host_and_path : forall host dest, win_args (quote_for_windows host ++ 58 :: quote_for_windows dest) = [host ++ 58 :: dest].
Proof.
  intros h d. unfold win_args. pose proof (win_quoted h (58 :: quote_for_windows d) ltac:(cbn; discriminate)) as W.
  pose proof (win_quoted d [] I) as Wd. rewrite app_nil_r in Wd. change (win_word [] false 0) with (@nil N, @nil N) in Wd. cbn [fst snd] in Wd. rewrite app_nil_r in Wd.
  assert (W2 : win_word (58 :: quote_for_windows d) false 0 = (58 :: d, [])).
  { change (win_word (58 :: quote_for_windows d) false 0) with (let '(w, t) := win_word (quote_for_windows d) false 0 in (58 :: w, t)). now rewrite Wd. }
  rewrite W2 in W. cbn [fst snd] in W. destruct (quote_nonempty h (58 :: quote_for_windows d)) as (A & B). rewrite (args_step _ _ _ _ A B W). now rewrite args_end.
Qed.

(** * The remote shell *)
Definition esc (s : str) : str := replace 34 [92; 34] (replace 92 [92; 92] s).
Lemma esc_cons c s : esc (c :: s) = (if c =? 92 then [92; 92] else if c =? 34 then [92; 34] else [c]) ++ esc s.
Proof.
  unfold esc. cbn [replace flat_map]. rewrite flat_map_app. f_equal. destruct (c =? 92) eqn:A; [reflexivity|]. cbn. destruct (c =? 34); reflexivity.
Qed.
Definition no_expansion (s : str) : Prop := ~ In 36 s /\ ~ In 96 s.
Lemma sh_escaped s t w : no_expansion s -> sh_text t false = Some w -> sh_text (esc s ++ 34 :: t) true = Some (s ++ fst w, snd w).
Proof.
  intros (A & B) H. induction s as [|c s IH]; [cbn; rewrite H; now destruct w|].
  assert (IH' : sh_text (esc s ++ 34 :: t) true = Some (s ++ fst w, snd w)) by (apply IH; intros X; [apply A|apply B]; now right).
  rewrite esc_cons. destruct (c =? 92) eqn:C92.
  - apply N.eqb_eq in C92. subst c. cbn [app sh_text N.eqb Pos.eqb orb]. rewrite IH'. reflexivity.
  - destruct (c =? 34) eqn:C34.
    + apply N.eqb_eq in C34. subst c. cbn [app sh_text N.eqb Pos.eqb orb]. rewrite IH'. reflexivity.
    + cbn [app sh_text]. rewrite C34, C92. assert (E : (c =? 36) || (c =? 96) = false).
      { apply orb_false_iff. split; apply N.eqb_neq; intros ->; [apply A|apply B]; now left. }
      rewrite E, IH'. reflexivity.
Qed.
Lemma esc_names u : forallb (fun c => negb (c =? 92) && negb (c =? 34)) u = true -> forall r, esc (u ++ r) = u ++ esc r.
Proof.
  intros H r. induction u as [|c u IH]; [reflexivity|]. cbn in H. apply andb_true_iff in H. destruct H as (H1 & H2). cbn [app]. rewrite esc_cons, IH by exact H2.
  apply andb_true_iff in H1. destruct H1 as (H1 & H3). apply negb_true_iff in H1, H3. now rewrite H1, H3.
Qed.
Lemma span_spec f s : exists a b, span f s = (a, b) /\ s = a ++ b /\ forallb f a = true /\ match b with [] => True | c :: _ => f c = false end.
Proof.
  induction s as [|c s (a & b & E & S & F & B)]; [exists [], []; auto|]. cbn [span]. destruct (f c) eqn:Fc.
  - rewrite E. exists (c :: a), b. cbn. rewrite Fc, F. now subst s.
  - exists [], (c :: s). auto.
Qed.
Lemma span_at f a b : forallb f a = true -> match b with [] => True | c :: _ => f c = false end -> span f (a ++ b) = (a, b).
Proof.
  induction a as [|c a IH]; intros F B; cbn [app].
  - destruct b as [|c b]; [reflexivity|]. cbn [span]. now rewrite B.
  - cbn in F. apply andb_true_iff in F. destruct F as (F1 & F2). cbn [span]. now rewrite F1, IH.
Qed.
Lemma slash_at u r : forallb (fun c => negb (c =? 47)) u = true -> match r with [] => True | c :: _ => c = 47 end -> find_slash (u ++ r) = length u.
Proof.
  induction u as [|c u IH]; intros H R; cbn [app find_slash length].
  - destruct r as [|c r]; [reflexivity|]. subst c. reflexivity.
  - cbn in H. apply andb_true_iff in H. destruct H as (H1 & H2). apply negb_true_iff in H1. rewrite H1. f_equal. now apply IH.
Qed.
Lemma esc_app a b : esc (a ++ b) = esc a ++ esc b.
Proof. unfold esc. now rewrite !replace_app. Qed.
Lemma esc_none u : ~ In 92 (esc u) -> esc u = u.
Proof.
  induction u as [|c u IH]; intros H; [reflexivity|]. rewrite esc_cons in *. rewrite in_app_iff in H. destruct (c =? 92); [elim H; left; now left|]. destruct (c =? 34); [elim H; left; now left|].
  cbn. f_equal. apply IH. tauto.
Qed.
Lemma esc_no_slash u : forallb (fun c => negb (c =? 47)) u = true -> forallb (fun c => negb (c =? 47)) (esc u) = true.
Proof.
  induction u as [|c u IH]; intros H; [reflexivity|]. cbn in H. apply andb_true_iff in H. destruct H as (H1 & H2). rewrite esc_cons, forallb_app, IH by exact H2. rewrite andb_true_r.
  destruct (c =? 92); [reflexivity|]. destruct (c =? 34); [reflexivity|]. cbn. now rewrite H1.
Qed.
Lemma is_user_spec u : is_user u = negb (match u with [] => true | _ => false end) && user_name u.
Proof.
  destruct u as [|c u]; [reflexivity|]. cbn [is_user user_name negb andb]. unfold lower. f_equal. induction u as [|d u IH]; [reflexivity|]. cbn [forallb]. rewrite IH. f_equal. unfold digit.
  destruct (d =? 45); cbn; [now rewrite orb_true_r|now rewrite orb_false_r].
Qed.
Lemma user_chars u : user_name u = true -> forallb (fun c => name_char c && negb (c =? 92) && negb (c =? 34)) u = true.
Proof.
  assert (L : forall d, lower d || digit d || (d =? 45) = true -> name_char d && negb (d =? 92) && negb (d =? 34) = true).
  { intros d H. unfold name_char, lower, digit in *. lia. }
  destruct u as [|c u]; [reflexivity|]. cbn [user_name forallb]. intros H. apply andb_true_iff in H. destruct H as (H1 & H2). apply andb_true_iff. split; [apply L; now rewrite H1|].
  apply forallb_forall. rewrite forallb_forall in H2. intros x I. apply L. now apply H2.
Qed.
Lemma forallb_weak {A} (f g : A -> bool) l : (forall x, f x = true -> g x = true) -> forallb f l = true -> forallb g l = true.
Proof. intros H. rewrite !forallb_forall. auto. Qed.

Definition next_ok (t : str) : Prop := match t with [] => True | c :: _ => sep c = true end.
Lemma sh_next t : next_ok t -> sh_text t false = Some ([], t).
Proof.
  destruct t as [|c t]; [reflexivity|]. cbn [next_ok sh_text]. intros S. assert (E : c =? 34 = false) by (unfold sep, blank in S; lia). now rewrite E, S.
Qed.
Lemma sep_not_name c : sep c = true -> name_char c = false.
Proof. unfold sep, blank, name_char, lower, digit. lia. Qed.

Lemma sh_quoted s t : no_expansion s -> next_ok t -> sh_text (34 :: esc s ++ 34 :: t) false = Some (s, t).
Proof. intros E N. cbn [sh_text N.eqb Pos.eqb negb]. rewrite (sh_escaped s t ([], t) E (sh_next t N)). cbn. now rewrite app_nil_r. Qed.
Lemma sh_word_home r : sh_word (126 :: r) = let '(u, t) := span name_char r in
  match t with
  | [] => Some ((Some u, []), [])
  | c :: _ => if (c =? 47) || sep c then match sh_text t false with Some (w, t2) => Some ((Some u, w), t2) | None => None end else None
  end.
Proof. reflexivity. Qed.
Lemma sh_home u x t : user_name u = true -> sh_text (47 :: x) false = Some t -> sh_word (126 :: u ++ 47 :: x) = Some ((Some u, fst t), snd t).
Proof.
  intros U H. rewrite sh_word_home. assert (Sp : span name_char (u ++ 47 :: x) = (u, 47 :: x)) by (apply span_at; [apply (forallb_weak _ _ _ (fun x H => proj1 (andb_prop _ _ (proj1 (andb_prop _ _ H)))) (user_chars u U))|reflexivity]). rewrite Sp.
  cbn [N.eqb Pos.eqb orb]. rewrite H. now destruct t.
Qed.
Lemma sh_home_end u t : user_name u = true -> next_ok t -> sh_word (126 :: u ++ t) = Some ((Some u, []), t).
Proof.
  intros U H. rewrite sh_word_home. assert (Sp : span name_char (u ++ t) = (u, t)) by (apply span_at; [apply (forallb_weak _ _ _ (fun x H => proj1 (andb_prop _ _ (proj1 (andb_prop _ _ H)))) (user_chars u U))|destruct t; [exact I|now apply sep_not_name]]). rewrite Sp.
  pose proof (sh_next t H) as S. destruct t as [|c t]; [reflexivity|]. cbn in H. rewrite H, orb_true_r, S. reflexivity.
Qed.

Lemma ssh_inner s : no_expansion s -> exists inner c r, quote_for_ssh s = quote_for_windows inner /\ inner = c :: r /\ sep c = false /\
  forall t, next_ok t -> sh_word (inner ++ t) = Some (meant s, t).
Proof.
  intros E. unfold quote_for_ssh. fold (esc s). cbv zeta.
  assert (All : meant s = (None, s) -> exists inner c r, quote_for_windows (34 :: esc s ++ [34]) = quote_for_windows inner /\ inner = c :: r /\ sep c = false /\
    forall t, next_ok t -> sh_word (inner ++ t) = Some (meant s, t)).
  { intros M. exists (34 :: esc s ++ [34]), 34, (esc s ++ [34]). split; [reflexivity|]. split; [reflexivity|]. split; [reflexivity|]. intros t N. rewrite M. cbn [app]. rewrite <- app_assoc. cbn [app].
    unfold sh_word. now rewrite (sh_quoted s t E N). }
  destruct s as [|c r]; [apply All; reflexivity|]. destruct (N.eq_dec c 126) as [->|Nc].
  2:{ assert (M : meant (c :: r) = (None, c :: r)). { unfold meant. destruct c as [|p]; [reflexivity|]. repeat (destruct p as [p|p|]; try reflexivity). now elim Nc. }
      specialize (All M). set (all := quote_for_windows (34 :: esc (c :: r) ++ [34])) in *.
      assert (H : exists d x, esc (c :: r) = d :: x /\ d <> 126). { rewrite esc_cons. destruct (c =? 92); [exists 92; eexists; split; [reflexivity|discriminate]|]. destruct (c =? 34); [exists 92; eexists; split; [reflexivity|discriminate]|]. exists c. eexists. split; [reflexivity|exact Nc]. }
      destruct H as (d & x & Ex & Nd). rewrite Ex. destruct d as [|p]; [exact All|]. repeat (destruct p as [p|p|]; try exact All). now elim Nd. }
  change (esc (126 :: r)) with (126 :: esc r) in *. cbn iota.
  destruct (span_spec (fun c => negb (c =? 47)) r) as (u & t' & Sp & Er & Fu & Bt). assert (Bt' : match t' with [] => True | c :: _ => c = 47 end).
  { destruct t' as [|c t']; [exact I|]. apply negb_false_iff, N.eqb_eq in Bt. exact Bt. }
  assert (M : meant (126 :: r) = if user_name u then (Some u, t') else (None, 126 :: r)) by (unfold meant; now rewrite Sp).
  assert (Es : esc r = esc u ++ esc t') by (rewrite Er; apply esc_app).
  assert (Et : match esc t' with [] => t' = [] | c :: x => c = 47 /\ exists y, t' = 47 :: y /\ x = esc y end).
  { destruct t' as [|c y]; [reflexivity|]. rewrite Bt'. change (esc (47 :: y)) with (47 :: esc y). split; [reflexivity|]. exists y. auto. }
  assert (Fe : find_slash (126 :: esc r) = S (length (esc u))).
  { rewrite Es. cbn [find_slash N.eqb Pos.eqb]. f_equal. apply slash_at; [now apply esc_no_slash|]. destruct (esc t'); [exact I|apply Et]. }
  rewrite Fe. cbn [skipn]. rewrite Nat.sub_succ, Nat.sub_0_r. assert (Fn : firstn (length (esc u)) (esc r) = esc u) by (rewrite Es, firstn_app, Nat.sub_diag, firstn_all; cbn; apply app_nil_r).
  rewrite Fn. destruct (user_name u) eqn:U.
  - assert (Eu : esc u = u). { rewrite <- (app_nil_r u) at 1. rewrite esc_names; [cbn; apply app_nil_r|]. pose proof (user_chars u U) as UC. rewrite forallb_forall in UC. apply forallb_forall. intros x Ix. apply UC in Ix. apply andb_true_iff in Ix. destruct Ix as (Ix & A). apply andb_true_iff in Ix. destruct Ix as (_ & Ix). now rewrite A, Ix. }
    rewrite Eu in *. assert (Nu : (1 <? S (length u))%nat && negb (is_user u) = false). { rewrite is_user_spec, U. destruct u; reflexivity. } rewrite Nu.
    rewrite Es. destruct (esc t') as [|c x].
    + subst t'. rewrite app_nil_r. exists (126 :: u), 126, u. split; [|split; [reflexivity|split; [reflexivity|intros t N; rewrite M; now apply sh_home_end]]].
      cbn [length]. rewrite Nat.eqb_refl. destruct (_ || _); reflexivity.
    + destruct Et as (-> & y & -> & ->).
      assert (Ey : no_expansion y). { destruct E as (A & B). subst r. split; intros X; [apply A|apply B]; right; apply in_or_app; right; now right. }
      match goal with |- context [if ?b then _ else _] => destruct b eqn:Sb end.
      * assert (X : u = [] /\ y = []).
        { apply orb_true_iff in Sb. destruct Sb as [Sb|Sb].
          - destruct (list_eq_dec N.eq_dec (126 :: u ++ 47 :: esc y) [126]) as [X|]; [|discriminate]. destruct u; discriminate.
          - destruct (list_eq_dec N.eq_dec (126 :: u ++ 47 :: esc y) [126; 47]) as [X|]; [|discriminate]. destruct u as [|a u]; [|destruct u; discriminate]. split; [reflexivity|]. destruct y as [|b y]; [reflexivity|].
            rewrite esc_cons in X. destruct (b =? 92), (b =? 34); discriminate. }
        destruct X as (-> & ->). exists [126; 47], 126, [47]. split; [reflexivity|]. split; [reflexivity|]. split; [reflexivity|]. intros t N. rewrite M.
        change ([126; 47] ++ t) with (126 :: [] ++ 47 :: t). rewrite (sh_home [] t ([47], t) U); [reflexivity|].
        change (sh_text (47 :: t) false) with (before 47 (sh_text t false)). now rewrite (sh_next t N).
      * exists (126 :: u ++ 47 :: 34 :: esc y ++ [34]), 126, (u ++ 47 :: 34 :: esc y ++ [34]). split; [|split; [reflexivity|split; [reflexivity|]]].
        -- assert (Nl : Nat.eqb (S (length u)) (length (126 :: u ++ 47 :: esc y)) = false) by (apply Nat.eqb_neq; cbn [length]; rewrite app_length; cbn [length]; lia). rewrite Nl.
           f_equal. replace (S (length u) + 1)%nat with (S (length u + 1)) by lia. cbn [firstn skipn app]. rewrite firstn_app, skipn_app. replace (length u + 1 - length u)%nat with 1%nat by lia.
           rewrite firstn_all2, skipn_all2 by lia. cbn. now rewrite <- app_assoc.
        -- intros t N. rewrite M. assert (Ap : (126 :: u ++ 47 :: 34 :: esc y ++ [34]) ++ t = 126 :: u ++ 47 :: 34 :: esc y ++ 34 :: t).
           { cbn [app]. rewrite <- app_assoc. cbn [app]. now rewrite <- app_assoc. }
           rewrite Ap. rewrite (sh_home u _ (47 :: y, t) U); [reflexivity|].
           change (sh_text (47 :: 34 :: esc y ++ 34 :: t) false) with (before 47 (sh_text (34 :: esc y ++ 34 :: t) false)). now rewrite (sh_quoted y t Ey N).
  - assert (Nu : u <> []) by (intros ->; discriminate). assert (Lu : (1 <? S (length (esc u)))%nat = true).
    { apply Nat.ltb_lt. destruct u as [|a u]; [contradiction|]. rewrite esc_cons. destruct (a =? 92), (a =? 34); cbn; lia. }
    assert (Iu : is_user (esc u) = false).
    { destruct (is_user (esc u)) eqn:X; [|reflexivity]. rewrite is_user_spec in X. apply andb_true_iff in X. destruct X as (_ & X).
      assert (Y : esc u = u). { apply esc_none. intros I. apply user_chars in X. rewrite forallb_forall in X. apply X in I. discriminate I. }
      rewrite Y in X. congruence. }
    rewrite Lu, Iu. cbn [andb negb]. specialize (All M).
    match goal with |- context [if ?b then _ else _] => destruct b eqn:Sb end; [|exact All]. exfalso. apply orb_true_iff in Sb. rewrite Es in Sb.
    destruct (esc u) as [|a v] eqn:Eu; [cbn in Lu; discriminate|]. destruct Sb as [Sb|Sb].
    + destruct (list_eq_dec N.eq_dec (126 :: (a :: v) ++ esc t') [126]) as [X|]; [|discriminate]. discriminate.
    + destruct (list_eq_dec N.eq_dec (126 :: (a :: v) ++ esc t') [126; 47]) as [X|]; [|discriminate]. inversion X; subst a. pose proof (esc_no_slash u Fu) as Y. rewrite Eu in Y. discriminate.
Qed.

(** Every list of arguments without $ and ` arrives at a remote program as it was meant:
    paths below ~ and ~user below the home directory, everything else literally.  (The
    client's C runtime splits the command, ssh joins the arguments with blanks, the
    remote shell splits them again.) *)
Theorem C53_ssh_arguments : forall args, Forall no_expansion args ->
  sh_words (spaced (win_args (spaced (map quote_for_ssh args)))) = Some (map meant args).
Proof.
  intros args H.
  assert (X : exists inners, map quote_for_ssh args = map quote_for_windows inners /\ length inners = length args /\ Forall (fun s => (0 < length s)%nat) inners /\
    forall fuel, (length args <= fuel)%nat -> sh_words_fuel fuel (spaced inners) = Some (map meant args)).
  { induction H as [|s l E _ (ins & Eq & Len & Pos & Sh)]; [exists []; repeat split; [constructor|intros [|fuel] _; reflexivity]|].
    destruct (ssh_inner s E) as (inner & c & r & Q & Ei & Sc & W). exists (inner :: ins). split; [cbn; now rewrite Q, Eq|]. split; [cbn; now rewrite Len|]. split; [constructor; [subst inner; cbn; lia|exact Pos]|].
    intros fuel F. destruct fuel as [|fuel]; [cbn in F; lia|].
    assert (St : forall t, next_ok t -> sh_words_fuel (S fuel) (inner ++ t) = match sh_words_fuel fuel t with Some l0 => Some (meant s :: l0) | None => None end).
    { intros t N. specialize (W t N). subst inner. cbn [sh_words_fuel app skip_seps]. rewrite Sc. cbn [app] in W. now rewrite W. }
    destruct ins as [|i2 ins].
    - destruct l; [|discriminate]. specialize (St [] I). rewrite app_nil_r in St. cbn [spaced]. rewrite St. destruct fuel; reflexivity.
    - change (spaced (inner :: i2 :: ins)) with (inner ++ 32 :: spaced (i2 :: ins)). rewrite (St (32 :: spaced (i2 :: ins)) eq_refl).
      assert (Sk : sh_words_fuel fuel (32 :: spaced (i2 :: ins)) = sh_words_fuel fuel (spaced (i2 :: ins))) by (destruct fuel; reflexivity).
      rewrite Sk, Sh by (cbn in F; lia). reflexivity. }
  destruct X as (ins & Eq & Len & Pos & Sh). rewrite Eq, C53_windows_arguments. apply Sh. rewrite <- Len. apply Nat.le_le_succ_r. now apply spaced_length.
Qed.

(** $ and ` are not quoted: the remote shell expands them, e.g. runs the command in a
    path like a$(reboot). *)
Theorem C53_expansion_refuted : let s := [97; 36; 40; 114; 101; 98; 111; 111; 116; 41] in
  win_args (quote_for_ssh s) = [34 :: s ++ [34]] /\ sh_words (spaced (win_args (quote_for_ssh s))) = None.
Proof. split; vm_compute; reflexivity. Qed.

(** Non-trivial cases (with a quotation mark, backslashes at the end, a blank). *)
Example C53_example : Forall no_expansion [[126; 117; 45; 49; 47; 97; 34; 98; 92]; [99; 32; 100; 92]] /\
  map meant [[126; 117; 45; 49; 47; 97; 34; 98; 92]; [99; 32; 100; 92]] = [(Some [117; 45; 49], [47; 97; 34; 98; 92]); (None, [99; 32; 100; 92])].
Proof. split; [|reflexivity]. repeat constructor; cbn; intuition discriminate. Qed.

(** * scp commands *)
Theorem C53_scp_to_sftp : forall s,
  (exists a b, scp_at a b s /\ (forall a' b', scp_at a' b' s -> (length a <= length a')%nat) /\ scp_to_sftp s = a ++ [115; 102; 116; 112] ++ b) \/
  ((forall a b, ~ scp_at a b s) /\ scp_to_sftp s = []).
Proof.
  intros s. unfold scp_to_sftp.
  assert (Gen : forall r a0, (exists a b, scp_at a b r /\ (forall a' b', scp_at a' b' r -> (length a <= length a')%nat) /\ scp_to_sftp_from a0 r = a0 ++ a ++ [115; 102; 116; 112] ++ b) \/
    ((forall a b, ~ scp_at a b r) /\ scp_to_sftp_from a0 r = [])).
  { induction r as [|x r IH]; intros a0.
    - right. split; [|reflexivity]. intros a b (y & E & M & _). symmetry in E. apply app_eq_nil in E. destruct E as (_ & E). apply app_eq_nil in E. destruct E as (-> & _). discriminate.
    - cbn [scp_to_sftp_from].
      match goal with |- context [if ?b then _ else _] => destruct b eqn:B end.
      + left. destruct r as [|c2 [|c3 t]]; try discriminate. apply andb_true_iff in B. destruct B as (B & Bt). apply andb_true_iff in B. destruct B as (B & B3). apply andb_true_iff in B. destruct B as (B1 & B2).
        apply N.eqb_eq in B1, B2, B3. exists [], t. split; [|split; [intros; cbn; lia|reflexivity]]. exists [x; c2; c3]. split; [reflexivity|]. split; [|destruct t as [|d t]; [exact I|]; lia].
        unfold to_lower in *. unfold fold_case. cbn [map]. now rewrite B1, B2, B3.
      + assert (Z : forall b, ~ scp_at [] b (x :: r)).
        { intros b (y & E & M & Bb). destruct y as [|y1 [|y2 [|y3 [|]]]]; try discriminate. cbn [app] in E. inversion E; subst x r. cbn [map] in M. injection M as M1 M2 M3.
          unfold to_lower, fold_case in *. rewrite M1, M2, M3 in B. cbn in B. destruct b as [|d b]; [discriminate|]. lia. }
        assert (Sh : forall a b, scp_at a b (x :: r) -> exists a1, a = x :: a1 /\ scp_at a1 b r).
        { intros a b H. destruct a as [|z a1]; [now apply Z in H|]. destruct H as (y & E & M & Bb). cbn [app] in E. inversion E; subst. exists a1. split; [reflexivity|]. exists y. auto. }
        destruct (IH (a0 ++ [x])) as [(a & b & (y & E & M & Bb) & Mi & R)|(No & R)].
        * left. exists (x :: a), b. split; [exists y; subst r; auto|]. split.
          -- intros a' b' H. apply Sh in H. destruct H as (a1 & -> & H). cbn. apply Mi in H. lia.
          -- rewrite R. now rewrite <- app_assoc.
        * right. split; [|exact R]. intros a b H. apply Sh in H. destruct H as (a1 & _ & H). exact (No a1 b H). }
  destruct (Gen s []) as [(a & b & A & B & C)|H]; [left; exists a, b; auto|right; exact H].
Qed.
