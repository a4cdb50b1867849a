From Verif Require Import Base ListX ModelPathFilter SpecPathFilter.

Lemma deref_skipn s p c r : skipn p s = c :: r -> deref s p = Ok c /\ skipn (S p) s = r.
Proof.
  intros H. assert (L : p < length s).
  { assert (length (skipn p s) = S (length r)) by (rewrite H; reflexivity).
    rewrite skipn_length in *. lia. }
  unfold deref. destruct (Nat.ltb_spec p (length s)); [|lia].
  revert p H L H0. induction s as [|a s IH]; intros p H L _; [simpl in L; lia|].
  destruct p as [|p]; cbn [skipn] in *.
  - inversion H; subst. split; reflexivity.
  - cbn [nth length] in *. apply IH; try lia. assumption.
Qed.

Lemma skipn_nil_iff {A} (s : list A) p : skipn p s = [] <-> length s <= p.
Proof.
  split; intros H.
  - apply (f_equal (@length _)) in H. rewrite skipn_length in H. simpl in H. lia.
  - now apply skipn_all2.
Qed.

Lemma deref_end s p : p = length s -> deref s p = Ok ch_nul.
Proof.
  intros ->. unfold deref. rewrite Nat.ltb_irrefl, Nat.eqb_refl. reflexivity.
Qed.

Lemma in_skipn {A} (x : A) n l : In x (skipn n l) -> In x l.
Proof.
  revert l; induction n as [|n IH]; intros [|a l] H; simpl in *; auto.
Qed.

Lemma glob_nil_stars pat : glob pat [] -> all_stars pat.
Proof.
  remember [] as s eqn:E. induction 1; try discriminate.
  - constructor.
  - apply app_eq_nil in E. destruct E as (_ & E). constructor; [reflexivity|]. now apply IHglob.
Qed.

Lemma stars_glob pat s : all_stars pat -> pat <> [] -> glob pat s.
Proof.
  induction pat as [|c pat IH]; intros H Hne; [congruence|].
  inversion H; subst. destruct pat as [|c' pat].
  - rewrite <- (app_nil_r s). constructor. constructor.
  - change s with ([] ++ s). constructor. apply IH; [assumption|discriminate].
Qed.

Lemma glob_star_inv pat s : glob (ch_star :: pat) s ->
  exists n, n <= length s /\ glob pat (skipn n s).
Proof.
  inversion 1; subst.
  - exists (length pre). rewrite app_length, skipn_app_exact. split; [lia|assumption].
  - congruence.
Qed.

Lemma glob_star_intro pat s n : glob pat (skipn n s) -> glob (ch_star :: pat) s.
Proof. intros H. rewrite <- (firstn_skipn n s). now constructor. Qed.

Lemma eqb_q c : (c =? ch_question)%N = true -> c = ch_question.
Proof. apply N.eqb_eq. Qed.

(** The loop over n inside the star case, as a function of its own. *)
Section Try.
Variable f : nat -> nat -> outcome bool.
Variables p len : nat.
Fixpoint try (k n : nat) {struct k} : outcome bool :=
  match k with
  | O => Ok false
  | S k' => do r <- f (p + n)%nat (len - n)%nat; if (r : bool) then Ok true else try k' (S n)
  end.
End Try.

Lemma is_match_star rest s p len : rest <> [] ->
  is_match (ch_star :: rest) s p len = try (is_match rest s) p len len 0.
Proof. intros H. destruct rest as [|b rest]; [congruence|]. reflexivity. Qed.

Lemma try_true f p len k : forall n m,
  n <= m < n + k -> (forall j, n <= j < m -> f (p + j) (len - j) = Ok false) ->
  f (p + m) (len - m) = Ok true -> try f p len k n = Ok true.
Proof.
  induction k as [|k IH]; intros n m Hm Hf Ht; [lia|].
  cbn [try]. destruct (Nat.eq_dec m n) as [->|].
  - rewrite Ht. reflexivity.
  - rewrite Hf by lia. cbn [bind]. apply (IH (S n) m); [lia| |assumption].
    intros j Hj. apply Hf. lia.
Qed.

Lemma try_cases f p len k : forall n,
  (exists m, n <= m < n + k /\ f (p + m) (len - m) = Ok true) \/
  (try f p len k n = Ok false /\ forall m, n <= m < n + k -> f (p + m) (len - m) = Ok false) \/
  (exists m, n <= m < n + k /\ f (p + m) (len - m) <> Ok true /\ f (p + m) (len - m) <> Ok false /\
     try f p len k n = f (p + m) (len - m) /\
     forall j, n <= j < m -> f (p + j) (len - j) = Ok false).
Proof.
  induction k as [|k IH]; intros n.
  - right; left. split; [reflexivity|]. lia.
  - cbn [try]. destruct (f (p + n) (len - n)) as [[]| | |] eqn:E.
    + left. exists n. split; [lia|assumption].
    + cbn [bind]. destruct (IH (S n)) as [(m & Hm & Ht)|[(E' & Hall)|(m & Hm & H1 & H2 & H3 & H4)]].
      * left. exists m. split; [lia|assumption].
      * right; left. split; [assumption|]. intros m Hm. destruct (Nat.eq_dec m n) as [->|]; [assumption|]. apply Hall. lia.
      * right; right. exists m. repeat split; try assumption; try lia.
        intros j Hj. destruct (Nat.eq_dec j n) as [->|]; [assumption|]. apply H4. lia.
    + right; right. exists n. cbn [bind]. rewrite E. repeat split; try discriminate; try lia.
    + right; right. exists n. cbn [bind]. rewrite E. repeat split; try discriminate; try lia.
    + right; right. exists n. cbn [bind]. rewrite E. repeat split; try discriminate; try lia.
Qed.

(** Q: a failing position that has a matching later position is decided without
    reading out of bounds. *)
Lemma fail_before_match pat s : nul_free s ->
  forall p len q, p <= length s -> p < q -> glob pat (skipn q s) -> q <= length s ->
  ~ glob pat (skipn p s) -> is_match pat s p len = Ok false.
Proof.
  intros Hnf. induction pat as [|a pat IH]; intros p len q Hp Hpq Hg Hq Hn.
  - cbn [is_match]. destruct (skipn p s) as [|c r] eqn:E.
    + exfalso. apply Hn. constructor.
    + destruct (deref_skipn s p c r E) as (-> & _). cbn [bind].
      destruct (N.eqb_spec c ch_nul) as [->|]; [|reflexivity].
      exfalso. apply Hnf. apply (in_skipn _ p). rewrite E. now left.
  - inversion Hg as [|c pat' s' Hg' E1 E2|pre pat' s' Hg' E1 E2|c pat' s' Hc1 Hc2 Hg' E1 E2]; subst.
    + (* ? *)
      cbn [is_match]. rewrite N.eqb_refl.
      destruct (skipn p s) as [|c0 r] eqn:E.
      { apply skipn_nil_iff in E. rewrite deref_end by lia. reflexivity. }
      destruct (deref_skipn s p c0 r E) as (-> & E'). cbn [bind].
      destruct (N.eqb_spec c0 ch_nul) as [->|].
      { reflexivity. }
      symmetry in E2. destruct (deref_skipn s q c s' E2) as (_ & E2').
      assert (S q <= length s).
      { assert (length (skipn q s) = S (length s')) by (rewrite E2; reflexivity).
        rewrite skipn_length in *. lia. }
      apply (IH (S p) len (S q)); try lia.
      * now rewrite E2'.
      * rewrite E'. intros Hc. apply Hn. now constructor.
    + (* star: contradiction *)
      exfalso. apply Hn.
      assert (Hm : glob pat (skipn (length pre) (skipn q s))).
      { rewrite <- E2. rewrite skipn_app_exact. assumption. }
      rewrite skipn_skipn in Hm.
      apply (glob_star_intro _ _ (length pre + q - p)).
      rewrite skipn_skipn. replace (length pre + q - p + p) with (length pre + q) by lia. exact Hm.
    + cbn [is_match].
      destruct (N.eqb_spec a ch_question); [congruence|].
      destruct (N.eqb_spec a ch_star); [congruence|].
      destruct (skipn p s) as [|c0 r] eqn:E.
      { apply skipn_nil_iff in E. rewrite deref_end by lia. cbn [bind].
        destruct (N.eqb_spec ch_nul a) as [<-|]; [|reflexivity].
        exfalso. apply Hnf. apply (in_skipn _ q). rewrite <- E2. now left. }
      destruct (deref_skipn s p c0 r E) as (-> & E'). cbn [bind].
      destruct (N.eqb_spec c0 a) as [->|]; [|reflexivity].
      symmetry in E2. destruct (deref_skipn s q a s' E2) as (_ & E2').
      assert (S q <= length s).
      { assert (length (skipn q s) = S (length s')) by (rewrite E2; reflexivity).
        rewrite skipn_length in *. lia. }
      apply (IH (S p) len (S q)); try lia.
      * now rewrite E2'.
      * rewrite E'. intros Hc. apply Hn. now constructor.
Qed.

(** glob is decidable; needed to find the least matching offset. *)
Lemma glob_dec pat : forall s, glob pat s \/ ~ glob pat s.
Proof.
  induction pat as [|a pat IH]; intros s.
  - destruct s; [left; constructor|right; intros H; inversion H].
  - destruct (N.eq_dec a ch_question) as [->|Hq].
    + destruct s as [|c s].
      { right; intros H; inversion H; subst; congruence. }
      destruct (IH s) as [H|H]; [left; now constructor|right].
      intros H'; inversion H'; subst; congruence.
    + destruct (N.eq_dec a ch_star) as [->|Hs].
      * assert (D : forall n, (exists k, k <= n /\ glob pat (skipn k s)) \/ (forall k, k <= n -> ~ glob pat (skipn k s))).
        { induction n as [|n IHn].
          - destruct (IH (skipn 0 s)) as [H|H]; [left; exists 0; split; [lia|exact H]|right].
            intros k Hk. replace k with 0 by lia. exact H.
          - destruct IHn as [(k & Hk & H)|Hall]; [left; exists k; split; [lia|assumption]|].
            destruct (IH (skipn (S n) s)) as [H|H]; [left; exists (S n); split; [lia|exact H]|right].
            intros k Hk. destruct (Nat.eq_dec k (S n)) as [->|]; [exact H|apply Hall; lia]. }
        destruct (D (length s)) as [(k & Hk & H)|Hall].
        { left. now apply (glob_star_intro _ _ k). }
        right. intros H. apply glob_star_inv in H. destruct H as (n & Hn & H). exact (Hall n Hn H).
      * destruct s as [|c s].
        { right; intros H; inversion H; subst; congruence. }
        destruct (N.eq_dec c a) as [->|Hc].
        -- destruct (IH s) as [H|H]; [left; now constructor|right].
           intros H'; inversion H'; subst; congruence.
        -- right; intros H'; inversion H'; subst; congruence.
Qed.

Lemma least_match pat s p n : glob pat (skipn (p + n) s) ->
  exists m, m <= n /\ glob pat (skipn (p + m) s) /\ forall j, j < m -> ~ glob pat (skipn (p + j) s).
Proof.
  induction n as [n IH] using lt_wf_ind. intros H.
  assert (D : (exists j, j < n /\ glob pat (skipn (p + j) s)) \/ forall j, j < n -> ~ glob pat (skipn (p + j) s)).
  { clear IH H. induction n as [|n IHn]; [right; lia|].
    destruct IHn as [(j & Hj & Hg)|Hall]; [left; exists j; split; [lia|assumption]|].
    destruct (glob_dec pat (skipn (p + n) s)) as [Hg|Hg]; [left; exists n; split; [lia|assumption]|right].
    intros j Hj. destruct (Nat.eq_dec j n) as [->|]; [assumption|apply Hall; lia]. }
  destruct D as [(j & Hj & Hg)|Hall].
  - destruct (IH j Hj Hg) as (m & Hm & Hgm & Hl). exists m. repeat split; [lia|assumption|assumption].
  - exists n. repeat split; [lia|assumption|assumption].
Qed.

(** A matching path is always accepted, without undefined behaviour. *)
Lemma match_accepts pat s : nul_free s ->
  forall p len, p <= length s -> length s <= p + len ->
  (length s = p + len -> p < length s \/ ~ (all_stars pat /\ 2 <= length pat)) ->
  glob pat (skipn p s) -> is_match pat s p len = Ok true.
Proof.
  intros Hnf. induction pat as [|a pat IH]; intros p len Hp Hlen Hdeg Hg.
  - cbn [is_match]. assert (E : skipn p s = []) by (inversion Hg; reflexivity). apply skipn_nil_iff in E.
    rewrite deref_end by lia. reflexivity.
  - inversion Hg as [|c pat' s' Hg' E1 E2|pre pat' s' Hg' E1 E2|c pat' s' Hc1 Hc2 Hg' E1 E2]; subst.
    + symmetry in E2. destruct (deref_skipn s p c s' E2) as (Ed & E2').
      cbn [is_match]. rewrite N.eqb_refl, Ed. cbn [bind].
      assert (c <> ch_nul).
      { intros ->. apply Hnf. apply (in_skipn _ p). rewrite E2. now left. }
      destruct (N.eqb_spec c ch_nul); [congruence|].
      assert (S p <= length s).
      { assert (length (skipn p s) = S (length s')) by (rewrite E2; reflexivity).
        rewrite skipn_length in *. lia. }
      apply IH; try lia. now rewrite E2'.
    + destruct pat as [|b pat].
      { reflexivity. }
      rewrite is_match_star by discriminate.
      assert (Hm : glob (b :: pat) (skipn (p + length pre) s)).
      { rewrite Nat.add_comm, <- skipn_skipn, <- E2, skipn_app_exact. assumption. }
      assert (Hpl : p + length pre <= length s).
      { apply (f_equal (@length _)) in E2. rewrite app_length, skipn_length in E2. lia. }
      destruct (least_match (b :: pat) s p (length pre) Hm) as (m & Hml & Hmg & Hleast).
      assert (Hmlen : m < len).
      { destruct (Nat.lt_ge_cases m len) as [|Hge]; [assumption|exfalso].
        (* then m = len = remaining, the rest matches the empty string *)
        assert (E : p + m = length s) by lia.
        rewrite skipn_all2 in Hmg by lia.
        apply glob_nil_stars in Hmg.
        destruct m as [|m].
        - (* p = length s, len = 0 *)
          assert (Hl0 : length s = p + len) by lia.
          destruct (Hdeg Hl0) as [|Hn]; [lia|]. apply Hn. split; [|simpl; lia].
          constructor; [reflexivity|assumption].
        - apply (Hleast 0); [lia|]. apply stars_glob; [assumption|discriminate]. }
      apply (try_true _ _ _ _ 0 m); [lia| |].
      * intros j Hj. apply (fail_before_match (b :: pat) s Hnf (p + j) (len - j) (p + m)); try lia.
        -- assumption.
        -- apply Hleast. lia.
      * apply IH; try lia; assumption.
    + symmetry in E2. destruct (deref_skipn s p a s' E2) as (Ed & E2').
      cbn [is_match].
      destruct (N.eqb_spec a ch_question); [congruence|].
      destruct (N.eqb_spec a ch_star); [congruence|].
      rewrite Ed. cbn [bind]. rewrite N.eqb_refl.
      assert (S p <= length s).
      { assert (length (skipn p s) = S (length s')) by (rewrite E2; reflexivity).
        rewrite skipn_length in *. lia. }
      apply IH; try lia. now rewrite E2'.
Qed.

Lemma try_true_inv f p len k : forall n, try f p len k n = Ok true ->
  exists m, n <= m < n + k /\ f (p + m) (len - m) = Ok true /\
    forall j, n <= j < m -> f (p + j) (len - j) = Ok false.
Proof.
  induction k as [|k IH]; intros n H; [discriminate|].
  cbn [try] in H. destruct (f (p + n) (len - n)) as [[]| | |] eqn:E; try discriminate.
  - exists n. split; [lia|]. split; [assumption|]. lia.
  - cbn [bind] in H. destruct (IH (S n) H) as (m & Hm & Ht & Hf).
    exists m. split; [lia|]. split; [assumption|]. intros j Hj.
    destruct (Nat.eq_dec j n) as [->|]; [assumption|]. apply Hf. lia.
Qed.

Lemma stars_accept pat s : forall p len, all_stars pat -> pat <> [] -> 1 <= len ->
  is_match pat s p len = Ok true.
Proof.
  induction pat as [|a pat IH]; intros p len H Hne Hl; [congruence|].
  inversion H; subst. destruct pat as [|b pat]; [reflexivity|].
  rewrite is_match_star by discriminate. destruct len as [|len]; [lia|].
  apply (try_true _ _ _ _ 0 0); [lia|lia|]. apply IH; [assumption|discriminate|lia].
Qed.

Lemma deref_oob s p : length s < p -> deref s p = UB.
Proof.
  intros H. unfold deref. destruct (Nat.ltb_spec p (length s)); [lia|].
  destruct (Nat.eqb_spec p (length s)); [lia|]. reflexivity.
Qed.

(** A true answer is a real match. *)
Lemma accepts_match pat s : nul_free s -> nul_free pat ->
  forall p len, is_match pat s p len = Ok true ->
  (p <= length s /\ glob pat (skipn p s)) \/ (length s < p /\ all_stars pat).
Proof.
  intros Hnf. induction pat as [|a pat IH]; intros Hnp p len H.
  - cbn [is_match] in H. destruct (Nat.lt_ge_cases (length s) p) as [Hgt|Hle].
    { rewrite deref_oob in H by assumption. discriminate. }
    left. split; [assumption|].
    destruct (skipn p s) as [|c r] eqn:E; [constructor|].
    destruct (deref_skipn s p c r E) as (Ed & _). rewrite Ed in H. cbn [bind] in H.
    exfalso. destruct (N.eqb_spec c ch_nul) as [Ec|]; [|discriminate].
    apply Hnf. apply (in_skipn _ p). rewrite E, Ec. now left.
  - assert (Hnp' : nul_free pat) by (intros Hc; apply Hnp; now right).
    specialize (IH Hnp').
    destruct (N.eq_dec a ch_question) as [->|Hq]; [|destruct (N.eq_dec a ch_star) as [->|Hs]].
    + cbn [is_match] in H. rewrite N.eqb_refl in H.
      destruct (Nat.lt_ge_cases (length s) p) as [Hgt|Hle].
      { rewrite deref_oob in H by assumption. discriminate. }
      destruct (skipn p s) as [|c r] eqn:E.
      { apply skipn_nil_iff in E. rewrite deref_end in H by lia. discriminate. }
      destruct (deref_skipn s p c r E) as (Ed & E'). rewrite Ed in H. cbn [bind] in H.
      destruct (N.eqb_spec c ch_nul); [discriminate|].
      assert (S p <= length s).
      { assert (length (skipn p s) = S (length r)) by (rewrite E; reflexivity). rewrite skipn_length in *. lia. }
      left. split; [assumption|]. constructor. rewrite <- E'.
      destruct (IH (S p) len H) as [(_ & G)|(? & _)]; [exact G|lia].
    + destruct pat as [|b pat].
      { destruct (Nat.lt_ge_cases (length s) p) as [Hgt|Hle].
        - right. split; [assumption|]. repeat constructor.
        - left. split; [assumption|]. rewrite <- (app_nil_r (skipn p s)). constructor. constructor. }
      rewrite is_match_star in H by discriminate.
      apply try_true_inv in H. destruct H as (m & Hm & Ht & Hf).
      destruct (IH (p + m) (len - m) Ht) as [(Hle & G)|(Hgt & Hst)].
      * left. split; [lia|]. apply (glob_star_intro _ _ m). rewrite skipn_skipn, Nat.add_comm. exact G.
      * destruct (Nat.lt_ge_cases (length s) p) as [Hp|Hp].
        -- right. split; [assumption|]. constructor; [reflexivity|assumption].
        -- exfalso. assert (E : is_match (b :: pat) s (p + 0) (len - 0) = Ok true).
           { apply stars_accept; [assumption|discriminate|lia]. }
           rewrite Hf in E by lia. discriminate.
    + cbn [is_match] in H.
      destruct (N.eqb_spec a ch_question); [congruence|].
      destruct (N.eqb_spec a ch_star); [congruence|].
      destruct (Nat.lt_ge_cases (length s) p) as [Hgt|Hle].
      { rewrite deref_oob in H by assumption. discriminate. }
      destruct (skipn p s) as [|c r] eqn:E.
      { apply skipn_nil_iff in E. rewrite deref_end in H by lia. cbn [bind] in H.
        destruct (N.eqb_spec ch_nul a) as [<-|]; [|discriminate].
        exfalso. apply Hnp. now left. }
      destruct (deref_skipn s p c r E) as (Ed & E'). rewrite Ed in H. cbn [bind] in H.
      destruct (N.eqb_spec c a) as [Eca|]; [rewrite Eca in *|discriminate].
      assert (S p <= length s).
      { assert (length (skipn p s) = S (length r)) by (rewrite E; reflexivity). rewrite skipn_length in *. lia. }
      left. split; [assumption|]. constructor; try assumption. rewrite <- E'.
      destruct (IH (S p) len H) as [(_ & G)|(? & _)]; [exact G|lia].
Qed.

(** Outcomes other than UB never occur: no error status, no fuel. *)
Lemma is_match_outcomes pat s : forall p len,
  (exists b, is_match pat s p len = Ok b) \/ is_match pat s p len = UB.
Proof.
  assert (D : forall p, (exists c, deref s p = Ok c) \/ deref s p = UB).
  { intros p. unfold deref. destruct (_ <? _)%nat; [left; eauto|]. destruct (_ =? _)%nat; [left; eauto|now right]. }
  induction pat as [|a pat IH]; intros p len.
  - cbn [is_match]. destruct (D p) as [(c & ->)| ->]; cbn [bind]; [left; eauto|now right].
  - destruct (N.eq_dec a ch_star) as [->|Hs].
    + destruct pat as [|b pat]; [left; exists true; reflexivity|].
      rewrite is_match_star by discriminate.
      destruct (try_cases (is_match (b :: pat) s) p len len 0) as [(m & Hm & Ht)|[(E & _)|(m & _ & H1 & H2 & E & _)]].
      * clear Hm Ht m. generalize 0. generalize len at 2 4. intros k.
        induction k as [|k IHk]; intros n; [left; exists false; reflexivity|].
        cbn [try]. destruct (IH (p + n) (len - n)) as [([|] & ->)| ->]; cbn [bind];
          [left; eauto|apply IHk|now right].
      * left; eauto.
      * rewrite E. apply IH.
    + cbn [is_match]. destruct (a =? ch_question)%N.
      * destruct (D p) as [(c & ->)| ->]; cbn [bind]; [|now right].
        destruct (c =? ch_nul)%N; [left; eauto|apply IH].
      * destruct (N.eqb_spec a ch_star); [congruence|].
        destruct (D p) as [(c & ->)| ->]; cbn [bind]; [|now right].
        destruct (c =? a)%N; [apply IH|left; eauto].
Qed.

(** No over-read for patterns with a bounded prefix. *)
Lemma bounded_no_ub pat s : nul_free s -> nul_free pat ->
  forall p len k, p <= length s -> p + len <= length s + k -> bounded_prefix k pat ->
  exists b, is_match pat s p len = Ok b.
Proof.
  intros Hnf. induction pat as [|a pat IH]; intros Hnp p len k Hp Hlen Hb.
  - cbn [is_match]. destruct (skipn p s) as [|c r] eqn:E.
    + apply skipn_nil_iff in E. rewrite deref_end by lia. eexists; reflexivity.
    + destruct (deref_skipn s p c r E) as (-> & _). eexists; reflexivity.
  - assert (Hnp' : nul_free pat) by (intros Hc; apply Hnp; now right).
    specialize (IH Hnp'). cbn [bounded_prefix] in Hb.
    assert (Cons : forall c r, skipn p s = c :: r -> S p <= length s).
    { intros c r E. assert (length (skipn p s) = S (length r)) by (rewrite E; reflexivity).
      rewrite skipn_length in *. lia. }
    destruct (N.eqb_spec a ch_star) as [->|Hs].
    + destruct pat as [|b pat]; [exists true; reflexivity|].
      destruct Hb as ([|Hk] & Hb); [discriminate|].
      rewrite is_match_star by discriminate.
      assert (G : forall j n, n + j <= len -> exists x, try (is_match (b :: pat) s) p len j n = Ok x).
      { induction j as [|j IHj]; intros n Hn; [exists false; reflexivity|].
        cbn [try]. destruct (IH (p + n) (len - n) k) as (x & ->); [lia|lia|assumption|].
        cbn [bind]. destruct x; [eauto|apply IHj; lia]. }
      apply G. lia.
    + cbn [is_match].
      destruct (N.eqb_spec a ch_question) as [->|Hq].
      * destruct (skipn p s) as [|c r] eqn:E.
        { apply skipn_nil_iff in E. rewrite deref_end by lia. exists false; reflexivity. }
        destruct (deref_skipn s p c r E) as (-> & _). cbn [bind].
        destruct (c =? ch_nul)%N; [eauto|].
        pose proof (Cons _ _ eq_refl). apply (IH (S p) len (S k)); [lia|lia|assumption].
      * destruct (N.eqb_spec a ch_star); [congruence|].
        destruct (skipn p s) as [|c r] eqn:E.
        { apply skipn_nil_iff in E. rewrite deref_end by lia. cbn [bind].
          destruct (N.eqb_spec ch_nul a) as [<-|]; [|eauto]. exfalso. apply Hnp. now left. }
        destruct (deref_skipn s p c r E) as (-> & _). cbn [bind].
        destruct (c =? a)%N; [|eauto].
        pose proof (Cons _ _ eq_refl). apply (IH (S p) len (S k)); [lia|lia|assumption].
Qed.

Theorem match_accepted pat s : nul_free s -> ~ degenerate pat s ->
  glob pat s -> is_match_string pat s = Ok true.
Proof.
  intros Hnf Hd Hg. apply match_accepts; try assumption; try lia.
  intros _. destruct s as [|c s]; [right|left; simpl; lia].
  intros (H1 & H2). apply Hd. split; [reflexivity|]. split; assumption.
Qed.

Theorem string_sound pat s b : nul_free s -> nul_free pat -> ~ degenerate pat s ->
  is_match_string pat s = Ok b -> (b = true <-> glob pat s).
Proof.
  intros Hnf Hnp Hd E. split.
  - intros ->. destruct (accepts_match pat s Hnf Hnp 0 (length s) E) as [(_ & G)|(? & _)]; [exact G|lia].
  - intros G. rewrite (match_accepted pat s Hnf Hd G) in E. congruence.
Qed.

Theorem filter_sound rules path b : nul_free path ->
  Forall (fun r => nul_free (r_pattern r) /\ ~ degenerate (r_pattern r) path) rules ->
  filter_is_match rules path = Ok b -> filter_spec rules path b.
Proof.
  intros Hnf F. induction F as [|r rules (Hn & Hd) F IH]; cbn [filter_is_match]; intros E.
  - inversion E. constructor.
  - destruct (is_match_string (r_pattern r) path) as [m| | |] eqn:Em; try discriminate.
    cbn [bind] in E. pose proof (string_sound _ _ _ Hnf Hn Hd Em) as Hs.
    destruct m.
    + inversion E. constructor. now apply Hs.
    + apply fs_skip; [|auto]. intros G. apply Hs in G. discriminate.
Qed.

Theorem filter_total rules path : nul_free path ->
  Forall (fun r => nul_free (r_pattern r) /\ bounded_prefix 0 (r_pattern r)) rules ->
  exists b, filter_is_match rules path = Ok b.
Proof.
  intros Hnf F. induction F as [|r rules (Hn & Hb) F IH]; cbn [filter_is_match]; [eauto|].
  unfold is_match_string.
  destruct (bounded_no_ub (r_pattern r) path Hnf Hn 0 (length path) 0) as (x & ->); [lia|lia|assumption|].
  cbn [bind]. destruct x; eauto.
Qed.

Theorem filter_spec_unique rules path b1 b2 :
  filter_spec rules path b1 -> filter_spec rules path b2 -> b1 = b2.
Proof.
  intros H1; revert b2; induction H1; intros b2 H2; inversion H2; subst; auto; contradiction.
Qed.
