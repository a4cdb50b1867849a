(** C19: path helpers (common/path.cc). *)
From Verif Require Import Base ListX Str ModelPath SpecPath ProofPath.
Local Open Scope N_scope.

(** Joining is associative, with the empty path as unit. *)
Theorem C19_join_monoid : forall a b c,
  join (join a b) c = join a (join b c) /\ join [] a = a /\ join a [] = a.
Proof.
  intros a b c. split; [|split; [destruct a; reflexivity|reflexivity]].
  destruct c as [|z c]; [reflexivity|]. destruct b as [|y b].
  - destruct a; reflexivity.
  - unfold join at 2. set (pre := if needs_sep a then a ++ [slash] else a).
    assert (E : join a (join (y :: b) (z :: c)) = pre ++ join (y :: b) (z :: c)).
    { unfold join. destruct (needs_sep (y :: b)); reflexivity. }
    rewrite E. unfold join. rewrite needs_sep_app by discriminate.
    destruct (needs_sep (y :: b)); now rewrite <- !app_assoc.
Qed.

(** The result of a join starts with the first and ends with the second part,
    with at most one added separator between them, and exactly when both parts
    are non-empty and there is none yet. *)
Theorem C19_join_shape : forall a b, exists m,
  join a b = a ++ m ++ b /\
  (m = [] \/ m = [slash]) /\
  (m = [slash] <-> a <> [] /\ b <> [] /\ no_trailing_sep a).
Proof.
  intros a b. destruct b as [|y b].
  - exists []. split; [now rewrite app_nil_r|]. split; [auto|]. split; [discriminate|]. intros (_ & H & _). congruence.
  - cbn [join]. destruct (snoc_case a) as [->|(a' & x & ->)].
    + exists []. split; [reflexivity|]. split; [auto|]. split; [discriminate|]. intros (H & _). congruence.
    + unfold needs_sep. rewrite last_char_snoc. destruct (is_sep_spec x) as [S|S]; cbn [negb].
      * exists []. split; [reflexivity|]. split; [auto|]. split; [discriminate|].
        intros (_ & _ & H). exfalso. exact (H _ _ eq_refl S).
      * exists [slash]. split; [now rewrite <- app_assoc|]. split; [auto|]. split; [|auto].
        intros _. split; [now destruct a'|]. split; [discriminate|]. now apply no_trailing_snoc.
Qed.

(** Joining never creates a double separator out of a clean right-hand side. *)
Theorem C19_join_no_double : forall a b, ~ has_double_sep a -> ~ has_double_sep b -> no_leading_sep b ->
  ~ has_double_sep (join a b).
Proof.
  assert (S : forall a m b, (m = [] \/ m = [slash]) -> no_leading_sep b -> (m = [] \/ no_trailing_sep a) ->
     ~ has_double_sep a -> ~ has_double_sep b -> ~ has_double_sep (a ++ m ++ b)).
  { intros a m b Hm Lb Ta Da Db (l1 & u & v & l2 & E & Su & Sv).
    assert (C : forall (a b : bytes) l1 u v l2, a ++ b = l1 ++ u :: v :: l2 -> separator u -> separator v ->
        has_double_sep a \/ has_double_sep b \/ (exists a', a = a' ++ [u]) /\ (exists b', b = v :: b')).
    { clear. intros a. induction a as [|x a IH]; intros b l1 u v l2 E Su Sv; cbn in E.
      - right. left. subst. exists l1, u, v, l2. auto.
      - destruct l1 as [|y l1]; cbn in E.
        + inversion E; subst. destruct a as [|x' a]; cbn in *.
          * right. right. split; [exists []; reflexivity|eauto].
          * inversion H1; subst. left. exists [], u, v, a. auto.
        + inversion E; subst. destruct (IH b l1 u v l2 H1 Su Sv) as [(p1 & p2 & p3 & p4 & -> & ?)|[H|((a' & ->) & H)]].
          * left. exists (y :: p1), p2, p3, p4. auto.
          * auto.
          * right. right. split; [exists (y :: a'); reflexivity|exact H]. }
    destruct (C a (m ++ b) l1 u v l2 E Su Sv) as [H|[H|((a' & Ea) & (b' & Eb))]].
    - contradiction.
    - destruct Hm as [->| ->]; [contradiction|]. destruct H as (p1 & p2 & p3 & p4 & E2 & S2 & S3).
      destruct p1 as [|? p1]; cbn in E2; inversion E2; subst.
      + exact (Lb p3 p4 eq_refl S3).
      + apply Db. exists p1, p2, p3, p4. auto.
    - destruct Hm as [->| ->].
      + cbn in Eb. exact (Lb v b' Eb Sv).
      + destruct Ta as [Ta|Ta]; [discriminate|]. exact (Ta a' u Ea Su). }
  intros a b Da Db Lb. destruct (C19_join_shape a b) as (m & -> & Hm & Hm2). apply S; auto.
  destruct Hm as [->| ->]; [auto|]. right. apply Hm2. reflexivity.
Qed.

(** But with a leading separator on the right it does: Join("a", "/b"). *)
Theorem C19_join_no_double_refuted : exists a b,
  ~ has_double_sep a /\ ~ has_double_sep b /\ has_double_sep (join a b).
Proof.
  exists [97], [47; 98]. split; [|split].
  - intros (l1 & x & y & l2 & E & _). destruct l1 as [|? [|? ?]]; discriminate.
  - intros (l1 & x & y & l2 & E & Sx & Sy). destruct l1 as [|? [|? [|? ?]]]; try discriminate. cbn in E. inversion E; subst.
    destruct Sy; discriminate.
  - exists [97], 47, 47, [98]. split; [reflexivity|]. split; left; reflexivity.
Qed.

(** Directory and base name of a joined path are the parts. *)
Theorem C19_join_split : forall d f, f <> [] -> no_seps f -> no_trailing_sep d ->
  dirname (join d f) = d /\ basename (join d f) = f.
Proof.
  intros d f Nf Sf Td.
  assert (F : exists y f', f = y :: f') by (destruct f; [congruence|eauto]). destruct F as (y & f' & Ef).
  destruct (snoc_case d) as [->|(d' & x & Ed)].
  - replace (join [] f) with f by (rewrite Ef; reflexivity).
    assert (P : parts f [] [] f []).
    { unfold parts. cbn. rewrite app_nil_r. split; [reflexivity|]. split; [apply no_trailing_nil|]. split; [constructor|].
      split; [assumption|]. split; [constructor|]. split; auto. }
    apply parts_names in P. destruct P as (B & D). rewrite D, B, Ef. auto.
  - assert (Jd : join d f = d ++ [slash] ++ f ++ []).
    { rewrite Ef. cbn [join]. rewrite Ed at 1. unfold needs_sep. rewrite last_char_snoc.
      destruct (is_sep_spec x) as [S|S]; [exfalso; exact (Td _ _ Ed S)|]. cbn [negb]. rewrite app_nil_r, <- app_assoc. reflexivity. }
    assert (P : parts (join d f) d [slash] f []).
    { unfold parts. rewrite Jd. split; [reflexivity|]. split; [assumption|]. split; [repeat constructor|].
      split; [assumption|]. split; [constructor|]. split; [congruence|discriminate]. }
    apply parts_names in P. destruct P as (B & D). rewrite B, D, Ef. split; [|reflexivity].
    destruct d; [now destruct d'|reflexivity].
Qed.

(** For every path: directory name and base name recombine to the path, up to
    the separators between and behind them. *)
Theorem C19_names_recombine : forall p, exists m t,
  p = dirname p ++ m ++ basename p ++ t /\ all_seps m /\ all_seps t /\ no_seps (basename p) /\
  (no_trailing_sep (dirname p) \/ all_seps (dirname p)).
Proof.
  intros p. destruct (parts_exist p) as (d & s & b & t & P). destruct (parts_names p d s b t P) as (B & D).
  rewrite B, D. destruct P as (E & Nd & As & Nb & At & B0 & S0).
  destruct b as [|y b].
  - exists [], []. destruct (B0 eq_refl) as (-> & ->). cbn [app] in E. subst. rewrite !app_nil_r. repeat split; auto; constructor.
  - destruct s as [|z s].
    + exists [], t. rewrite (S0 eq_refl) in E. cbn [app] in *. split; [exact E|]. split; [constructor|]. split; [assumption|]. split; [assumption|]. left. apply no_trailing_nil.
    + destruct d as [|c d].
      * exists [], t. cbn [app] in *. split; [exact E|]. split; [constructor|]. split; [assumption|]. split; [assumption|]. right. assumption.
      * exists (z :: s), t. repeat split; auto.
Qed.

(** So in the usual case (single forward slashes, none at the end) joining the
    names gives the path back. *)
Theorem C19_names_rejoin : forall p, p <> [] -> ~ has_double_sep p -> no_trailing_sep p -> fix_seps p = p ->
  join (dirname p) (basename p) = p.
Proof.
  intros p Np Dp Tp Fp. destruct (parts_exist p) as (d & s & b & t & P). destruct (parts_names p d s b t P) as (B & D).
  rewrite B, D. destruct P as (E & Nd & As & Nb & At & B0 & S0).
  assert (t = []). { destruct (snoc_case t) as [->|(t' & x & ->)]; [reflexivity|]. exfalso.
    apply (Tp (d ++ s ++ b ++ t') x). { rewrite E, <- !app_assoc. reflexivity. }
    apply Forall_app in At. destruct At as (_ & At). now inversion At. }
  subst t. rewrite app_nil_r in E.
  destruct b as [|y b]. { exfalso. destruct (B0 eq_refl) as (-> & ->). cbn in E. congruence. }
  destruct s as [|z s]. { rewrite (S0 eq_refl) in E. cbn [app] in E. now subst. }
  assert (s = []). { destruct s as [|z' s]; [reflexivity|]. exfalso. apply Dp. exists d, z, z', (s ++ y :: b).
    split; [exact E|]. inversion As; subst. inversion H2; subst. auto. }
  subst s.
  assert (z = slash).
  { inversion As; subst. destruct H1 as [->| ->]; [reflexivity|]. exfalso.
    assert (I : In backslash (fix_seps (d ++ [backslash] ++ y :: b))).
    { rewrite Fp. apply in_or_app. right. now left. }
    unfold fix_seps in I. apply in_map_iff in I. destruct I as (q & Eq & _). destruct (N.eqb_spec q backslash); [discriminate|congruence]. }
  subst z. destruct d as [|c d].
  - cbn [join]. rewrite E. reflexivity.
  - cbn [join]. destruct (snoc_case (c :: d)) as [?|(d' & x & Ed)]; [discriminate|].
    assert (Ns : needs_sep (c :: d) = true). { rewrite Ed. unfold needs_sep. rewrite last_char_snoc. destruct (is_sep_spec x); [exfalso; eapply Nd; eauto|reflexivity]. }
    rewrite Ns, E, <- app_assoc. reflexivity.
Qed.

(** Normalisation: idempotent, changes only the separators. *)
Theorem C19_fix_separators : forall p,
  fix_seps (fix_seps p) = fix_seps p /\ length (fix_seps p) = length p /\ ~ In backslash (fix_seps p) /\
  (forall i b, nth_error p i = Some b -> nth_error (fix_seps p) i = Some (if is_sep b then slash else b)).
Proof.
  intros p. unfold fix_seps. split; [|split; [apply map_length|split]].
  - rewrite map_map. apply map_ext. intros b. destruct (b =? backslash) eqn:E; [reflexivity|now rewrite E].
  - intros I. apply in_map_iff in I. destruct I as (b & E & _). destruct (N.eqb_spec b backslash); [discriminate|congruence].
  - intros i b E. erewrite map_nth_error by exact E. f_equal. unfold is_sep.
    destruct (N.eqb_spec b slash), (N.eqb_spec b backslash); cbn; congruence.
Qed.

Theorem C19_ensure_separator : forall p,
  ends_with_sep (ensure_ends_with_sep p) = true /\
  ensure_ends_with_sep (ensure_ends_with_sep p) = ensure_ends_with_sep p /\
  (ensure_ends_with_sep p = p \/ ensure_ends_with_sep p = p ++ [slash] /\ no_trailing_sep p).
Proof.
  intros p. assert (A : ends_with_sep (ensure_ends_with_sep p) = true).
  { unfold ensure_ends_with_sep. destruct (ends_with_sep p) eqn:E; [exact E|]. unfold ends_with_sep. now rewrite last_char_snoc. }
  split; [exact A|]. split.
  - unfold ensure_ends_with_sep at 1. now rewrite A.
  - unfold ensure_ends_with_sep. destruct (ends_with_sep p) eqn:E; [auto|]. right. split; [reflexivity|].
    intros l b -> S. unfold ends_with_sep in E. rewrite last_char_snoc in E. destruct (is_sep_spec b); congruence.
Qed.

Theorem C19_ensure_no_separator : forall p,
  no_trailing_sep (ensure_no_sep p) /\ ensure_no_sep (ensure_no_sep p) = ensure_no_sep p /\
  exists t, p = ensure_no_sep p ++ t /\ all_seps t.
Proof.
  intros p. unfold ensure_no_sep.
  assert (D : forall l, exists t, l = t ++ drop_seps l /\ all_seps t /\ (forall b l', drop_seps l = b :: l' -> ~ separator b)).
  { induction l as [|b l IH]; [exists []; repeat split; [constructor|discriminate]|]. cbn. destruct (is_sep_spec b) as [S|S].
    - destruct IH as (t & E & A & H). exists (b :: t). cbn. rewrite <- E. repeat split; auto. now constructor.
    - exists []. repeat split; [constructor|]. intros b' l' E. now inversion E; subst. }
  destruct (D (rev p)) as (t & E & A & H).
  split; [|split].
  - intros l' b E2. apply (f_equal (@rev _)) in E2. rewrite rev_involutive, rev_app_distr in E2. cbn in E2. eapply H; eauto.
  - rewrite rev_involutive. f_equal. destruct (drop_seps (rev p)) as [|b l'] eqn:E2; [reflexivity|]. cbn.
    destruct (is_sep_spec b) as [S|S]; [|reflexivity]. exfalso. eapply H; eauto.
  - exists (rev t). split.
    + rewrite <- rev_app_distr, <- E. now rewrite rev_involutive.
    + unfold all_seps in *. rewrite Forall_forall in *. intros x I. apply A. now apply in_rev.
Qed.

(** The empty path is not preserved: ensuring a trailing separator makes it the
    root directory.  (Every caller but HandleSetOptions guards against it.) *)
Theorem C19_ensure_separator_empty_refuted : ensure_ends_with_sep [] = [slash] /\ fix_seps [] = [].
Proof. split; reflexivity. Qed.

Example C19_example :
  join3 [97; 47] [98] [99] = [97; 47; 98; 47; 99] /\
  dirname [47; 102] = [47] /\ basename [47; 102] = [102] /\
  dirname [97; 47; 47; 98; 92] = [97] /\ basename [97; 47; 47; 98; 92] = [98] /\
  dirname [47; 47] = [47; 47] /\ basename [47; 47] = [] /\
  (* hypotheses of C19_join_split, C19_names_rejoin, C19_join_no_double *)
  no_seps [98] /\ no_trailing_sep [97] /\ no_leading_sep [98] /\ ~ has_double_sep [97; 47; 98] /\ fix_seps [97; 47; 98] = [97; 47; 98].
Proof.
  repeat (split; [reflexivity|]). split; [repeat constructor; intros [H|H]; discriminate|].
  split; [intros [|? [|? ?]] ? E; inversion E; subst; intros [H|H]; discriminate|].
  split; [intros ? ? E; inversion E; subst; intros [H|H]; discriminate|]. split; [|reflexivity].
  intros (l1 & a & b & l2 & E & A & B). destruct l1 as [|? [|? [|? [|? ?]]]]; cbn in E; inversion E; subst.
  - destruct A; discriminate.
  - destruct B; discriminate.
Qed.

Print Assumptions C19_join_monoid.
Print Assumptions C19_join_shape.
Print Assumptions C19_join_no_double.
Print Assumptions C19_join_no_double_refuted.
Print Assumptions C19_join_split.
Print Assumptions C19_names_recombine.
Print Assumptions C19_names_rejoin.
Print Assumptions C19_fix_separators.
Print Assumptions C19_ensure_separator.
Print Assumptions C19_ensure_no_separator.
