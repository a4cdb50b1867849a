(** C63: where cdc_stream caches the manifest of a directory, and which directories it
    takes for the same. *)
From Verif Require Import Base ListX ModelPath ModelText ProofText ProofDisk SpecCachePath ModelCachePath SpecSessions ModelSessions.
Local Notation str := (list N).
Local Open Scope N_scope.

(** ** Code points *)
Definition bytes256 : list N := map N.of_nat (seq 0 256).
Lemma in_bytes256 c : c < 256 -> In c bytes256.
Proof. intros H. unfold bytes256. apply in_map_iff. exists (N.to_nat c). split; [lia|]. apply List.in_seq. lia. Qed.
Lemma by_table (f g : N -> bool) : forallb (fun c => Bool.eqb (f c) (g c)) bytes256 = true -> forall c, c < 256 -> f c = g c.
Proof. intros H c Hc. rewrite forallb_forall in H. specialize (H c (in_bytes256 c Hc)). now apply Bool.eqb_prop. Qed.
Lemma is10_range c : c < 256 -> is10 c = ((128 <=? c) && (c <? 192)).
Proof. apply (by_table is10 (fun c => (128 <=? c) && (c <? 192))). vm_compute. reflexivity. Qed.
Lemma land128 c : c < 256 -> (N.land c 128 =? 0) = (c <? 128).
Proof. apply (by_table (fun c => N.land c 128 =? 0) (fun c => c <? 128)). vm_compute. reflexivity. Qed.
Lemma land224 c : c < 256 -> (N.land c 224 =? 192) = ((192 <=? c) && (c <? 224)).
Proof. apply (by_table (fun c => N.land c 224 =? 192) (fun c => (192 <=? c) && (c <? 224))). vm_compute. reflexivity. Qed.
Lemma land240 c : c < 256 -> (N.land c 240 =? 224) = ((224 <=? c) && (c <? 240)).
Proof. apply (by_table (fun c => N.land c 240 =? 224) (fun c => (224 <=? c) && (c <? 240))). vm_compute. reflexivity. Qed.
Lemma land248 c : c < 256 -> (N.land c 248 =? 240) = ((240 <=? c) && (c <? 248)).
Proof. apply (by_table (fun c => N.land c 248 =? 240) (fun c => (240 <=? c) && (c <? 248))). vm_compute. reflexivity. Qed.
Lemma is10_tail c : c < 256 -> is10 c = true <-> tail_byte c.
Proof. intros H. rewrite (is10_range c H). unfold tail_byte. rewrite andb_true_iff, N.leb_le, N.ltb_lt. tauto. Qed.
Lemma is10_zero : is10 0 = false.
Proof. reflexivity. Qed.

(** The length of the code point at the start of a string, or 0; nothing behind the
    terminator is read. *)
Theorem C63_code_point_len : forall s : str, is_bytes s -> exists n, code_point_len s = Ok n /\
  (forall p r, code_point p -> s = p ++ r -> n = length p) /\ ((n > 0)%nat -> exists p r, code_point p /\ s = p ++ r).
Proof.
  intros s B.
  assert (Z : forall n, n = 0%nat -> (forall p r, code_point p -> s = p ++ r -> False) -> exists n0, Ok n = Ok n0 /\ (forall p r, code_point p -> s = p ++ r -> n0 = length p) /\ ((n0 > 0)%nat -> exists p r, code_point p /\ s = p ++ r)).
  { intros n -> F. exists 0%nat. split; [reflexivity|]. split; [intros p r A E; destruct (F p r A E)|lia]. }
  destruct s as [|a s].
  { unfold code_point_len. cbn. apply Z; [reflexivity|]. intros p r A E. destruct A; discriminate. }
  assert (Ba : a < 256) by exact (Forall_inv B). assert (B1 : is_bytes s) by exact (Forall_inv_tail B). unfold code_point_len. cbn [at_ nth_error app bind].
  assert (U : forall p r, code_point p -> a :: s = p ++ r -> exists p1 r1, p = a :: p1 /\ s = p1 ++ r1).
  { intros p r A E. destruct A; cbn in E; inversion E; subst; eexists; eexists; split; reflexivity. }
  rewrite (land128 a Ba), (land224 a Ba), (land240 a Ba), (land248 a Ba).
  assert (Hd : forall i, is10_at (a :: s) (S i) = is10_at s i) by reflexivity.
  change (at_ (a :: s) 0) with (Ok a). cbn [bind].
  destruct (N.eqb_spec a 0) as [->|Na]; [apply Z; [reflexivity|]; intros p r A E; inversion A; subst; cbn in E; inversion E; lia|].
  destruct (N.ltb_spec a 128) as [L|L].
  { exists 1%nat. split; [reflexivity|]. split; [|intros _; exists [a], s; split; [constructor; lia|reflexivity]].
    intros p r A E. inversion A; subst; cbn in E; inversion E; subst; [reflexivity|lia|lia|lia]. }
  assert (G : forall (b : bool) k (Q : Prop), (b = true <-> Q) -> (k > 0)%nat -> (Q -> exists p r, code_point p /\ length p = k /\ a :: s = p ++ r) -> (forall p r, code_point p -> a :: s = p ++ r -> Q /\ length p = k) ->
     exists n, Ok (if b then k else 0)%nat = Ok n /\ (forall p r, code_point p -> a :: s = p ++ r -> n = length p) /\ ((n > 0)%nat -> exists p r, code_point p /\ a :: s = p ++ r)).
  { intros b k Q Hb Hk H1 H2. exists (if b then k else 0)%nat. split; [reflexivity|]. split.
    - intros p r A E. destruct (H2 p r A E) as (X & Y). apply Hb in X. rewrite X. auto.
    - destruct b; [|lia]. intros _. destruct (H1 (proj1 Hb eq_refl)) as (p & r & A & _ & E). now exists p, r. }
  assert (R : forall (t : str) (i : nat), is_bytes t -> (i <= length t)%nat -> exists b, is10_at t i = Ok b /\ (b = true <-> exists c, nth_error t i = Some c /\ tail_byte c)).
  { intros t i Bt Li. unfold is10_at, at_. destruct (Nat.eq_dec i (length t)) as [->|Ne].
    - rewrite nth_error_app2, Nat.sub_diag by lia. cbn [nth_error bind]. exists false. split; [reflexivity|]. split; [discriminate|]. intros (c & X & _). rewrite (proj2 (nth_error_None t (length t))) in X by lia. discriminate.
    - rewrite nth_error_app1 by lia. destruct (nth_error t i) as [c|] eqn:E; [|apply nth_error_None in E; lia]. cbn [bind]. exists (is10 c). split; [reflexivity|].
      assert (Hc : c < 256) by (apply nth_error_In in E; exact (proj1 (Forall_forall _ _) Bt c E)). rewrite (is10_tail c Hc). split; [intros X; now exists c|intros (c0 & X & Y); inversion X; subst; exact Y]. }
  destruct (N.leb_spec 192 a) as [L2|L2]; cbn [andb].
  2:{ destruct (N.leb_spec 224 a); [lia|]. destruct (N.leb_spec 240 a); [lia|]. cbn [andb]. apply Z; [reflexivity|]. intros p r A E. inversion A; subst; cbn in E; inversion E; subst; lia. }
  destruct (N.ltb_spec a 224) as [L3|L3]; cbn [andb].
  { destruct (R s 0%nat B1 ltac:(lia)) as (b & Eb & Hb). rewrite Hd, Eb. cbn [bind]. refine (G b 2%nat _ Hb ltac:(lia) _ _).
    - intros (c & X & T). destruct s as [|c0 s]; [discriminate|]. inversion X; subst. exists [a; c], s. split; [constructor; [lia|exact T]|]. split; reflexivity.
    - intros p r A E. inversion A; subst; cbn in E; inversion E; subst; try lia. split; [|reflexivity]. eexists. split; [reflexivity|assumption]. }
  destruct (N.leb_spec 224 a) as [_|?]; [|lia]. destruct (N.ltb_spec a 240) as [L4|L4]; cbn [andb].
  { destruct (R s 0%nat B1 ltac:(lia)) as (b & Eb & Hb). rewrite !Hd, Eb. unfold and_then. cbn [bind]. destruct b.
    - destruct (proj1 Hb eq_refl) as (c & Xc & Tc). destruct s as [|c0 s]; [discriminate|]. inversion Xc; subst.
      destruct (R (c :: s) 1%nat B1 ltac:(cbn; lia)) as (b2 & Eb2 & Hb2). rewrite Eb2. cbn [bind]. refine (G b2 3%nat _ Hb2 ltac:(lia) _ _).
      + intros (c2 & X & T). destruct s as [|c3 s]; [discriminate|]. inversion X; subst. exists [a; c; c2], s. split; [constructor; [lia|exact Tc|exact T]|]. split; reflexivity.
      + intros p r A E. inversion A; subst; cbn in E; inversion E; subst; try lia. split; [|reflexivity]. eexists. split; [reflexivity|assumption].
    - cbn [bind]. apply Z; [reflexivity|]. intros p r A E. assert (X : false = true); [|discriminate]. apply Hb. inversion A; subst; cbn in E; inversion E; subst; try lia. eexists. split; [reflexivity|assumption]. }
  destruct (N.leb_spec 240 a) as [_|?]; [|lia]. destruct (N.ltb_spec a 248) as [L5|L5]; cbn [andb].
  2:{ apply Z; [reflexivity|]. intros p r A E. inversion A; subst; cbn in E; inversion E; subst; lia. }
  destruct (R s 0%nat B1 ltac:(lia)) as (b & Eb & Hb). rewrite !Hd, Eb. unfold and_then. cbn [bind]. destruct b.
  2:{ cbn [bind]. apply Z; [reflexivity|]. intros p r A E. assert (X : false = true); [|discriminate]. apply Hb. inversion A; subst; cbn in E; inversion E; subst; try lia. eexists. split; [reflexivity|assumption]. }
  destruct (proj1 Hb eq_refl) as (c & Xc & Tc). destruct s as [|c0 s]; [discriminate|]. inversion Xc; subst.
  destruct (R (c :: s) 1%nat B1 ltac:(cbn; lia)) as (b2 & Eb2 & Hb2). rewrite Eb2. cbn [bind]. destruct b2.
  2:{ cbn [bind]. apply Z; [reflexivity|]. intros p r A E. assert (X : false = true); [|discriminate]. apply Hb2. inversion A; subst; cbn in E; inversion E; subst; try lia. eexists. split; [reflexivity|assumption]. }
  destruct (proj1 Hb2 eq_refl) as (c2 & Xc2 & Tc2). destruct s as [|c3 s]; [discriminate|]. inversion Xc2; subst.
  destruct (R (c :: c2 :: s) 2%nat B1 ltac:(cbn; lia)) as (b3 & Eb3 & Hb3). rewrite Eb3. cbn [bind]. refine (G b3 4%nat _ Hb3 ltac:(lia) _ _).
  - intros (c3 & X & T). destruct s as [|c4 s]; [discriminate|]. inversion X; subst. exists [a; c; c2; c3], s. split; [constructor; [lia|exact Tc|exact Tc2|exact T]|]. split; reflexivity.
  - intros p r A E. inversion A; subst; cbn in E; inversion E; subst; try lia. split; [|reflexivity]. eexists. split; [reflexivity|assumption].
Qed.
Lemma code_point_tail p : code_point p -> forall i c, nth_error p (S i) = Some c -> tail_byte c.
Proof. intros A i c H. destruct A; destruct i as [|[|[|i]]]; cbn in H; try discriminate; try (inversion H; subst; assumption); try (destruct i; discriminate). Qed.
Lemma code_point_pos p : code_point p -> (length p > 0)%nat.
Proof. intros A. destruct A; cbn; lia. Qed.
Lemma utf8_app s t : utf8 s -> utf8 t -> utf8 (s ++ t).
Proof. intros A B. induction A as [|p s P A IH]; [exact B|]. rewrite <- app_assoc. now constructor. Qed.
Lemma utf8_ascii s : Forall (fun c => 0 < c < 128) s -> utf8 s.
Proof. induction 1 as [|c s H _ IH]; [constructor|]. exact (u_cons [c] s (cp1 c H) IH). Qed.
Lemma utf8_map f s : (forall c, 0 < c < 128 -> 0 < f c < 128) -> (forall c, 128 <= c -> f c = c) -> utf8 s -> utf8 (map f s).
Proof.
  intros A B. assert (T : forall c, tail_byte c -> f c = c) by (intros c (X & _); auto).
  induction 1 as [|p s P _ IH]; [constructor|]. rewrite map_app. constructor; [|exact IH].
  destruct P as [a Ha|a b Ha Hb|a b c Ha Hb Hc|a b c d Ha Hb Hc Hd]; cbn [map]; [constructor; auto|..]; rewrite ?(T b), ?(T c), ?(T d), (B a) by (auto; lia); constructor; auto.
Qed.

Lemma nth_skip (s : str) : forall n i, nth_error (skipn n s) i = nth_error s (n + i).
Proof. induction s as [|c s IH]; intros [|n] i; cbn; try reflexivity; [now destruct i|apply IH]. Qed.
Lemma eat_spec (s : str) (to_remove : nat) : is_bytes s -> (to_remove + 8 <= length s)%nat -> (forall i c, (length s - 8 <= i)%nat -> nth_error s i = Some c -> c < 128) ->
  forall fuel start, (to_remove < start + fuel)%nat -> (start + 8 <= length s)%nat ->
  exists st, eat fuel start to_remove s = Ok st /\ (start <= st)%nat /\ (to_remove <= st)%nat /\ (st + 8 <= length s)%nat /\ (utf8 (skipn start s) -> utf8 (skipn st s)) /\
    ((start < to_remove)%nat -> exists st1, (start <= st1 < to_remove)%nat /\ (st1 < st)%nat /\ (code_point (firstn (st - st1) (skipn st1 s)) \/ (st = st1 + 1)%nat)) /\
    ((to_remove <= start)%nat -> st = start).
Proof.
  intros B Hr Asc. induction fuel as [|fuel IH]; intros start Hf Hs; cbn [eat].
  - destruct (Nat.ltb_spec start to_remove); [lia|]. exists start. repeat split; auto; lia.
  - destruct (Nat.ltb_spec start to_remove) as [L|L]; [|exists start; repeat split; auto; lia].
    assert (Bt : is_bytes (skipn start s)) by (rewrite <- (firstn_skipn start s) in B; apply Forall_app in B; apply B).
    destruct (C63_code_point_len (skipn start s) Bt) as (n & En & Hn & Hp). rewrite En. cbn [bind].
    assert (K : (start + Nat.max n 1 + 8 <= length s)%nat /\ (code_point (firstn (Nat.max n 1) (skipn start s)) \/ Nat.max n 1 = 1%nat)).
    { destruct n as [|n]; [split; [lia|now right]|]. destruct (Hp ltac:(lia)) as (p & r & P & E). pose proof (Hn p r P E) as Lp.
      assert (M : Nat.max (S n) 1 = length p) by lia. rewrite M. split; [|left; rewrite E, firstn_app, Nat.sub_diag, firstn_O, app_nil_r, firstn_all; exact P].
      destruct (Nat.le_gt_cases (start + length p + 8) (length s)) as [X|X]; [exact X|]. exfalso.
      destruct (length s - 8 - start)%nat as [|i] eqn:Ei; [lia|]. destruct (nth_error p (S i)) as [c|] eqn:Ec; [|apply nth_error_None in Ec; lia].
      pose proof (code_point_tail p P i c Ec) as (T & _).
      assert (Es : nth_error s (length s - 8) = Some c).
      { replace (length s - 8)%nat with (start + S i)%nat by lia. rewrite <- nth_skip, E, nth_error_app1; [exact Ec|]. apply nth_error_Some. congruence. }
      pose proof (Asc _ c (le_n _) Es). lia. }
    destruct K as (K1 & K2). destruct (IH (start + Nat.max n 1)%nat ltac:(lia) K1) as (st & E & A1 & A2 & A3 & A4 & A5 & A6). exists st.
    split; [exact E|]. split; [lia|]. split; [exact A2|]. split; [exact A3|]. split; [|split; [|lia]].
    + intros U. apply A4. replace (start + Nat.max n 1)%nat with (Nat.max n 1 + start)%nat by lia. rewrite <- skipn_skipn. inversion U as [X|p r P U2 X].
      * exfalso. assert (Z : length (skipn start s) = 0%nat) by (rewrite <- X; reflexivity). rewrite skipn_length in Z. lia.
      * pose proof (Hn p r P (eq_sym X)) as Lp. pose proof (code_point_pos p P). replace (Nat.max n 1) with (length p) by lia. rewrite skipn_app_exact. exact U2.
    + intros _. destruct (Nat.lt_ge_cases (start + Nat.max n 1) to_remove) as [Y|Y].
      * destruct (A5 Y) as (st1 & B1 & B2 & B3). exists st1. split; [lia|]. auto.
      * specialize (A6 Y). subst st. exists start. split; [lia|]. split; [lia|]. replace (start + Nat.max n 1 - start)%nat with (Nat.max n 1) by lia. destruct K2 as [K2|K2]; [now left|right; lia].
Qed.

(** ** Names and paths *)
Definition canon (win : bool) (c : N) : N := let c := if win then lower c else c in if c =? 92 then 47 else c.
Lemma canon_eq win c d : canon win c = canon win d <-> char_eq win c d.
Proof.
  unfold canon, char_eq, sep, lower. destruct win.
  - destruct (N.leb_spec 65 c); destruct (N.leb_spec c 90); destruct (N.leb_spec 65 d); destruct (N.leb_spec d 90); cbn [andb];
    repeat match goal with |- context [?x =? 92] => destruct (N.eqb_spec x 92) end; split; intros X; try lia;
    try (destruct X as [X|[X|(_ & X)]]; lia); (destruct (N.eq_dec c d) as [E|E]; [left; exact E|right]); first [left; lia|right; split; [reflexivity|lia]].
  - repeat match goal with |- context [?x =? 92] => destruct (N.eqb_spec x 92) end; split; intros X; try lia;
    try (destruct X as [X|[X|(X & _)]]; [lia|lia|discriminate]); (destruct (N.eq_dec c d) as [E|E]; [left; exact E|right; left; lia]).
Qed.
Lemma is_sep_spec c : is_sep c = true <-> sep c.
Proof. unfold is_sep, sep, slash, backslash. rewrite orb_true_iff, !N.eqb_eq. tauto. Qed.
Lemma ends_spec (s : str) : ends_with_sep s = true <-> exists r c, s = r ++ [c] /\ sep c.
Proof.
  unfold ends_with_sep, last_char, byte. destruct (rev s) as [|c r] eqn:E.
  - split; [discriminate|]. intros (r & c & X & _). assert (Y : rev s = c :: rev r) by (rewrite X, rev_app_distr; reflexivity). congruence.
  - assert (Es : s = rev r ++ [c]) by (rewrite <- (rev_involutive s), E; reflexivity). rewrite is_sep_spec. split.
    + intros H. exists (rev r), c. auto.
    + intros (r2 & c2 & X & Y). rewrite X in Es. apply app_inj_tail in Es. destruct Es as (_ & ->). exact Y.
Qed.
Lemma canon_sep win c : sep c -> canon win c = 47.
Proof. intros [->| ->]; destruct win; reflexivity. Qed.
Definition sepped (s : str) (c : N) : str := if ends_with_sep s then s else s ++ [c].
Lemma ends_lower (s : str) : ends_with_sep (map lower s) = ends_with_sep s.
Proof.
  assert (L : forall c, sep (lower c) <-> sep c).
  { intros c. unfold sep, lower. destruct (N.leb_spec 65 c); destruct (N.leb_spec c 90); cbn [andb]; lia. }
  destruct (ends_with_sep s) eqn:E.
  - apply ends_spec in E. destruct E as (r & c & -> & Hc). apply ends_spec. exists (map lower r), (lower c). split; [now rewrite map_app|now apply L].
  - apply not_true_is_false. intros X. apply ends_spec in X. destruct X as (r & c & X & Hc). assert (Y : ends_with_sep s = true); [|congruence]. apply ends_spec.
    destruct s as [|a s] using rev_ind; [destruct r; discriminate|]. clear IHs. rewrite map_app in X. apply app_inj_tail in X. destruct X as (_ & X). exists s, a. split; [reflexivity|]. apply L. now rewrite X.
Qed.
Section Cache.
Variable win : bool.
Variable full : str -> str.
Variable hash : str -> str.
Lemma normal_canon d : normal win full d = map (canon win) (sepped (full d) (native_sep win)).
Proof.
  unfold normal, sepped, native_sep, canon. destruct win.
  - rewrite ends_lower. destruct (ends_with_sep (full d)); rewrite ?map_app, !map_map; reflexivity.
  - destruct (ends_with_sep (full d)); reflexivity.
Qed.
Lemma sepped_with (s : str) c : sep c -> with_sep s (sepped s c).
Proof.
  intros Hc. unfold sepped, with_sep. destruct (ends_with_sep s) eqn:E.
  - left. split; [reflexivity|]. now apply ends_spec.
  - right. split; [|now exists c]. intros X. apply ends_spec in X. congruence.
Qed.
Lemma native_is_sep : sep (native_sep win).
Proof. unfold sep, native_sep. destruct win; auto. Qed.
Lemma with_sep_canon (s : str) t : with_sep s t -> map (canon win) t = map (canon win) (sepped s (native_sep win)).
Proof.
  unfold sepped. intros [(-> & E)|(E & c & Hc & ->)].
  - apply ends_spec in E. now rewrite E.
  - destruct (ends_with_sep s) eqn:X; [apply ends_spec in X; contradiction|]. rewrite !map_app. cbn [map]. now rewrite (canon_sep win c Hc), (canon_sep win _ native_is_sep).
Qed.
Lemma Forall2_canon (a b : str) : Forall2 (char_eq win) a b <-> map (canon win) a = map (canon win) b.
Proof.
  split.
  - induction 1 as [|x y a b H _ IH]; [reflexivity|]. cbn [map]. f_equal; [now apply canon_eq|exact IH].
  - revert b. induction a as [|x a IH]; intros [|y b] H; try discriminate; constructor; cbn [map] in H; inversion H; [now apply canon_eq|auto].
Qed.
Lemma same_spelling_normal d1 d2 : same_spelling win (full d1) (full d2) <-> normal win full d1 = normal win full d2.
Proof.
  rewrite !normal_canon. split.
  - intros (a & b & A & B & F). apply Forall2_canon in F. rewrite <- (with_sep_canon _ _ A), <- (with_sep_canon _ _ B). exact F.
  - intros H. exists (sepped (full d1) (native_sep win)), (sepped (full d2) (native_sep win)). split; [apply sepped_with, native_is_sep|]. split; [apply sepped_with, native_is_sep|]. now apply Forall2_canon.
Qed.
Lemma lower_idem c : lower (lower c) = lower c.
Proof. unfold lower. destruct (N.leb_spec 65 c); destruct (N.leb_spec c 90); cbn [andb]; repeat match goal with |- context [?x <=? ?y] => destruct (N.leb_spec x y) end; cbn [andb]; lia. Qed.
Lemma canon_idem c : canon win (canon win c) = canon win c.
Proof.
  unfold canon. cbv zeta. destruct win.
  - destruct (lower c =? 92) eqn:E; [reflexivity|]. now rewrite lower_idem, E.
  - destruct (c =? 92) eqn:E; [reflexivity|]. now rewrite E.
Qed.
Lemma normal_ends d : exists r, normal win full d = r ++ [47].
Proof.
  rewrite normal_canon. unfold sepped. destruct (ends_with_sep (full d)) eqn:E.
  - apply ends_spec in E. destruct E as (r & c & -> & Hc). exists (map (canon win) r). rewrite map_app. cbn [map]. now rewrite (canon_sep win c Hc).
  - eexists. rewrite map_app. cbn [map]. now rewrite (canon_sep win _ native_is_sep).
Qed.
Lemma same_spelling_self d : same_spelling win (normal win full d) (full d).
Proof.
  exists (normal win full d), (sepped (full d) (native_sep win)). destruct (normal_ends d) as (r & E). split; [|split].
  - left. split; [reflexivity|]. exists r, 47. split; [exact E|now left].
  - apply sepped_with, native_is_sep.
  - apply Forall2_canon. rewrite normal_canon, map_map. apply map_ext. exact canon_idem.
Qed.

End Cache.

Section Hash.
Variable hash : str -> str.
(** blake3_sum_160: 20 bytes *)
Hypothesis hash_ok : forall d, is_bytes (hash d) /\ length (hash d) = 20%nat.
Definition h8 (d : str) : str := firstn 8 (to_hex_string (hash d)).
Lemma h8_len d : length (h8 d) = 8%nat.
Proof. unfold h8. pose proof (proj2 (hash_ok d)) as L. pose proof (to_hex_length (hash d)) as T. unfold byte in T, L |- *. rewrite firstn_length, T, L. reflexivity. Qed.
Lemma h8_hex d : h8 d = to_hex_string (firstn 4 (hash d)).
Proof. unfold h8. destruct (hash_ok d) as (_ & L). destruct (hash d) as [|a [|b [|c [|e l]]]]; try discriminate L. reflexivity. Qed.
Lemma firstn_bytes n (s : str) : is_bytes s -> is_bytes (firstn n s).
Proof. intros B. rewrite <- (firstn_skipn n s) in B. apply Forall_app in B. apply B. Qed.
Lemma h8_chars d : Forall (fun c => 48 <= c <= 57 \/ 97 <= c <= 102) (h8 d).
Proof. rewrite h8_hex. eapply Forall_impl; [|apply hex_chars, firstn_bytes, (proj1 (hash_ok d))]. unfold is_hex. intros. lia. Qed.
Lemma h8_inj d1 d2 : h8 d1 = h8 d2 -> firstn 4 (hash d1) = firstn 4 (hash d2).
Proof. rewrite !h8_hex. apply hex_injective; apply firstn_bytes, hash_ok. Qed.
End Hash.
Definition clean (win : bool) (full : str -> str) (d : str) : str := map (fun c => if invalid c then 95 else c) (normal win full d).
Lemma cache_dir_eq win full hash d : cache_dir win full hash d = clean win full d ++ h8 hash (normal win full d).
Proof. reflexivity. Qed.
Lemma invalid_forbidden c : invalid c = true <-> forbidden c.
Proof.
  unfold invalid, forbidden. rewrite existsb_exists. split.
  - intros (x & H & E). apply N.eqb_eq in E. subst x. cbn in *. intuition.
  - intros H. exists c. split; [|apply N.eqb_refl]. cbn in *. intuition.
Qed.

(** The name of the cache directory is a valid file name. *)
Theorem C63_valid_name : forall win full hash dir, (forall d, is_bytes (hash d) /\ length (hash d) = 20%nat) ->
  cache_dir win full hash dir <> [] /\ Forall (fun c => ~ forbidden c) (cache_dir win full hash dir).
Proof.
  intros win full hash dir Hh. rewrite cache_dir_eq. split.
  - intros X. apply app_eq_nil in X. destruct X as (_ & X). pose proof (h8_len hash Hh (normal win full dir)) as L. rewrite X in L. discriminate.
  - apply Forall_app. split.
    + unfold clean. apply Forall_map, Forall_forall. intros c _. destruct (invalid c) eqn:E; rewrite <- invalid_forbidden; [discriminate|congruence].
    + eapply Forall_impl; [|apply (h8_chars hash Hh)]. cbn. intros c Hc X. unfold forbidden in X. cbn in X. lia.
Qed.
(** Spellings of the same directory share sessions and cache. *)
Theorem C63_same_directory : forall win full hash d1 d2, same_spelling win (full d1) (full d2) -> cache_dir win full hash d1 = cache_dir win full hash d2.
Proof. intros win full hash d1 d2 H. apply same_spelling_normal in H. unfold cache_dir. now rewrite H. Qed.
(** Different directories do not, unless the first 32 bits of their hashes collide. *)
Definition collision (win : bool) (hash : str -> str) (a b : str) : Prop :=
  exists x y, x <> y /\ firstn 4 (hash x) = firstn 4 (hash y) /\ same_spelling win x a /\ same_spelling win y b.
Lemma h8_same win full hash (Hh : forall d, is_bytes (hash d) /\ length (hash d) = 20%nat) d1 d2 : h8 hash (normal win full d1) = h8 hash (normal win full d2) ->
  same_spelling win (full d1) (full d2) \/ collision win hash (full d1) (full d2).
Proof.
  intros H. apply (h8_inj hash Hh) in H. destruct (str_dec (normal win full d1) (normal win full d2)) as [E|E].
  - left. now apply same_spelling_normal.
  - right. exists (normal win full d1), (normal win full d2). split; [exact E|]. split; [exact H|]. split; apply same_spelling_self.
Qed.
Lemma app_same_tail (a b c d : str) : length b = length d -> a ++ b = c ++ d -> b = d.
Proof.
  intros L E. assert (La : length a = length c) by (apply (f_equal (@length N)) in E; rewrite !app_length in E; lia).
  apply (f_equal (skipn (length a))) in E. rewrite skipn_app_exact in E. rewrite La, skipn_app_exact in E. exact E.
Qed.
Theorem C63_different_directories : forall win full hash d1 d2, (forall d, is_bytes (hash d) /\ length (hash d) = 20%nat) ->
  cache_dir win full hash d1 = cache_dir win full hash d2 -> same_spelling win (full d1) (full d2) \/ collision win hash (full d1) (full d2).
Proof.
  intros win full hash d1 d2 Hh H. apply (h8_same win full hash Hh). rewrite !cache_dir_eq in H. apply app_same_tail in H; [exact H|]. now rewrite !(h8_len hash Hh).
Qed.

Definition s_tool : str := [99; 100; 99; 45; 102; 105; 108; 101; 45; 116; 114; 97; 110; 115; 102; 101; 114].   (* cdc-file-transfer *)
Definition s_chunks : str := [99; 104; 117; 110; 107; 115].                                                    (* chunks *)
Lemma needs_snoc (x : str) c : ~ sep c -> needs_sep (x ++ [c]) = true.
Proof. intros H. unfold needs_sep, last_char, byte. rewrite rev_app_distr. cbn. destruct (is_sep c) eqn:E; [apply is_sep_spec in E; contradiction|reflexivity]. Qed.
Lemma base_shape win appdata : exists m, (m = [] \/ m = [native_sep win]) /\
  join_native win (join_native win appdata s_tool) s_chunks = appdata ++ m ++ s_tool ++ native_sep win :: s_chunks /\
  forall k, k <> [] -> join_native win (join_native win (join_native win appdata s_tool) s_chunks) k = (appdata ++ m ++ s_tool ++ native_sep win :: s_chunks) ++ native_sep win :: k.
Proof.
  assert (J : forall x k c, k <> [] -> ~ sep c -> join_native win (x ++ [c]) k = (x ++ [c]) ++ native_sep win :: k).
  { intros x k c Hk Hc. destruct k as [|y k]; [congruence|]. unfold join_native. rewrite (needs_snoc x c Hc), <- !app_assoc. reflexivity. }
  set (m := if needs_sep appdata then [native_sep win] else []).
  assert (E1 : join_native win appdata s_tool = appdata ++ m ++ s_tool) by (unfold join_native, m, s_tool; destruct (needs_sep appdata); rewrite <- ?app_assoc; reflexivity).
  assert (Ns : forall c, In c [114; 115] -> ~ sep c) by (intros c [<-|[<-|[]]] [X|X]; discriminate).
  assert (E2 : join_native win (join_native win appdata s_tool) s_chunks = appdata ++ m ++ s_tool ++ native_sep win :: s_chunks).
  { rewrite E1. change s_tool with (removelast s_tool ++ [114]). rewrite !app_assoc. rewrite J; [rewrite <- !app_assoc; reflexivity|discriminate|apply Ns; now left]. }
  exists m. split; [unfold m; destruct (needs_sep appdata); auto|]. split; [exact E2|].
  intros k Hk. rewrite E2. assert (E3 : appdata ++ m ++ s_tool ++ native_sep win :: s_chunks = (appdata ++ m ++ s_tool ++ native_sep win :: removelast s_chunks) ++ [115]) by (rewrite <- !app_assoc; reflexivity).
  rewrite E3. apply J; [exact Hk|]. apply Ns. right. now left.
Qed.

(** The path of the cache: the directory's name behind the root, shortened from the front, by
    as few code points as possible, if it is too long; the hash is always kept. *)
Theorem C63_cache_path : forall win full hash appdata dir max_len, (forall d, is_bytes (hash d) /\ length (hash d) = 20%nat) -> is_bytes (full dir) ->
  exists m cut kept, let root := appdata ++ m ++ s_tool ++ native_sep win :: s_chunks in
    (m = [] \/ m = [native_sep win]) /\ cache_dir win full hash dir = cut ++ kept /\
    cache_path win full hash appdata dir max_len = Ok (root ++ native_sep win :: kept) /\ (8 <= length kept)%nat /\
    ((length root + 1 + 8 <= max_len)%nat -> (length (root ++ native_sep win :: kept) <= max_len)%nat) /\
    (utf8 (full dir) -> utf8 kept) /\
    (cut <> [] -> exists c1 p, cut = c1 ++ p /\ (code_point p \/ length p = 1%nat) /\ (length (root ++ native_sep win :: p ++ kept) > max_len)%nat).
Proof.
  intros win full hash appdata dir max_len Hh Bf. destruct (base_shape win appdata) as (m & Hm & Eb & Ek). set (root := appdata ++ m ++ s_tool ++ native_sep win :: s_chunks) in *.
  set (c := cache_dir win full hash dir). assert (Lc : (8 <= length c)%nat) by (unfold c; rewrite cache_dir_eq, app_length, (h8_len hash Hh); lia).
  assert (Hex : forall i x, (length c - 8 <= i)%nat -> nth_error c i = Some x -> x < 128).
  { intros i x Hi E. unfold c in *. rewrite cache_dir_eq, app_length, (h8_len hash Hh) in Hi. rewrite cache_dir_eq, nth_error_app2 in E by lia. apply nth_error_In in E.
    pose proof (proj1 (Forall_forall _ _) (h8_chars hash Hh _) x E) as Y. cbn in Y. lia. }
  assert (Hx : forall x, In x (h8 hash (normal win full dir)) -> 0 < x < 128) by (intros x E; pose proof (proj1 (Forall_forall _ _) (h8_chars hash Hh _) x E) as Y; cbn in Y; lia).
  assert (NatB : native_sep win < 128 /\ 0 < native_sep win) by (unfold native_sep; destruct win; split; reflexivity).
  assert (Low : forall x, 0 < x < 128 -> 0 < canon win x < 128).
  { intros x Hx2. unfold canon, lower. destruct win; [destruct (N.leb_spec 65 x); destruct (N.leb_spec x 90); cbn [andb]|]; match goal with |- context [?y =? 92] => destruct (N.eqb_spec y 92) end; lia. }
  assert (High : forall x, 128 <= x -> canon win x = x).
  { intros x Hx2. unfold canon, lower. destruct win; [destruct (N.leb_spec 65 x); destruct (N.leb_spec x 90); cbn [andb]|]; match goal with |- context [?y =? 92] => destruct (N.eqb_spec y 92) end; lia. }
  assert (Bc : is_bytes c).
  { unfold c. rewrite cache_dir_eq. apply Forall_app. split.
    - unfold clean. apply Forall_map. apply Forall_forall. intros x E. rewrite normal_canon in E. apply in_map_iff in E. destruct E as (y & <- & E).
      assert (Y : y < 256). { unfold sepped in E. destruct (ends_with_sep (full dir)); [exact (proj1 (Forall_forall _ _) Bf y E)|]. apply in_app_or in E. destruct E as [E|[<-|[]]]; [exact (proj1 (Forall_forall _ _) Bf y E)|lia]. }
      unfold is_byte. destruct (invalid (canon win y)); [lia|]. destruct (N.lt_ge_cases y 128) as [L|L]; [|rewrite (High y L); exact Y].
      destruct (N.eq_dec y 0) as [->|Ny]; [destruct win; vm_compute; reflexivity|]. pose proof (Low y ltac:(lia)). lia.
    - apply Forall_forall. intros x E. specialize (Hx x E). unfold is_byte. lia. }
  assert (Uc : utf8 (full dir) -> utf8 c).
  { intros U. unfold c. rewrite cache_dir_eq. apply utf8_app; [|apply utf8_ascii, Forall_forall; exact Hx].
    unfold clean. assert (Un : utf8 (normal win full dir)).
    { rewrite normal_canon. apply utf8_map; [exact Low|exact High|]. unfold sepped. destruct (ends_with_sep (full dir)); [exact U|]. apply utf8_app; [exact U|]. apply utf8_ascii. constructor; [lia|constructor]. }
    refine (utf8_map _ _ _ _ Un).
    - intros x Hx2. destruct (invalid x); lia.
    - intros x Hx2. destruct (invalid x) eqn:I1; [|reflexivity]. apply invalid_forbidden in I1. unfold forbidden in I1. cbn in I1. lia. }
  assert (Ln : forall k, length (root ++ native_sep win :: k) = (length root + 1 + length k)%nat) by (intros k; rewrite app_length; cbn [length]; lia).
  assert (Ne : forall k : str, (8 <= length k)%nat -> k <> []) by (intros k Hk ->; cbn in Hk; lia).
  assert (Ek2 : forall k, k <> [] -> join_native win root k = root ++ native_sep win :: k) by (intros k Hk; rewrite <- Eb at 1; exact (Ek k Hk)).
  unfold cache_path. fold s_tool. fold s_chunks. cbv zeta. rewrite Eb. fold c.
  destruct (Nat.leb_spec (length root + 1 + length c) max_len) as [Fit|Big].
  - exists m, [], c. cbv zeta. fold root. split; [exact Hm|]. split; [reflexivity|]. split; [f_equal; apply Ek2; auto|]. split; [exact Lc|]. split; [intros _; rewrite Ln; exact Fit|]. split; [exact Uc|]. congruence.
  - unfold kDirHashLen. destruct (Nat.ltb_spec (length c) 8); [lia|]. set (tr := Nat.min (length root + 1 + length c - max_len) (length c - 8)).
    destruct (eat_spec c tr Bc ltac:(unfold tr; lia) Hex (S tr) 0%nat ltac:(lia) Lc) as (st & E & _ & A2 & A3 & A4 & A5 & A6). rewrite E. cbn [bind].
    destruct (Nat.leb_spec (st + 8) (length c)) as [_|?]; [|lia].
    exists m, (firstn st c), (skipn st c). cbv zeta. fold root.
    assert (Lk : length (skipn st c) = (length c - st)%nat) by apply skipn_length.
    split; [exact Hm|]. split; [symmetry; apply firstn_skipn|]. split; [f_equal; apply Ek2; apply Ne; lia|]. split; [lia|]. split; [|split].
    + intros Q. rewrite Ln, Lk. unfold tr in A2. lia.
    + intros U. apply A4. cbn [skipn]. exact (Uc U).
    + intros Hc. destruct (Nat.eq_dec tr 0) as [Z|Z]; [specialize (A6 ltac:(lia)); subst st; cbn in Hc; congruence|].
      destruct (A5 ltac:(lia)) as (st1 & B1 & B2 & B3). exists (firstn st1 c), (firstn (st - st1) (skipn st1 c)).
      assert (Lp : length (firstn (st - st1) (skipn st1 c)) = (st - st1)%nat) by (rewrite firstn_length, skipn_length; lia).
      split; [|split].
      * rewrite <- (firstn_skipn st1 (firstn st c)) at 1. rewrite firstn_firstn, skipn_firstn_comm. f_equal. f_equal. lia.
      * destruct B3 as [B3|B3]; [now left|right; lia].
      * rewrite Ln, app_length, Lp, Lk. unfold tr in B1. lia.
Qed.
(** Different directories have different caches, unless their hashes collide. *)
Theorem C63_different_caches : forall win full hash appdata d1 d2 max1 max2 p, (forall d, is_bytes (hash d) /\ length (hash d) = 20%nat) -> is_bytes (full d1) -> is_bytes (full d2) ->
  cache_path win full hash appdata d1 max1 = Ok p -> cache_path win full hash appdata d2 max2 = Ok p ->
  same_spelling win (full d1) (full d2) \/ collision win hash (full d1) (full d2).
Proof.
  intros win full hash appdata d1 d2 max1 max2 p Hh B1 B2 P1 P2. apply (h8_same win full hash Hh).
  assert (K : forall d mx, is_bytes (full d) -> cache_path win full hash appdata d mx = Ok p -> exists x, p = x ++ h8 hash (normal win full d)).
  { intros d mx B P. destruct (C63_cache_path win full hash appdata d mx Hh B) as (m & cut & kept & _ & Ec & Ep & L8 & _). rewrite Ep in P. inversion P; subst p.
    rewrite cache_dir_eq in Ec. assert (Lh := h8_len hash Hh (normal win full d)).
    assert (Lcut : (length cut <= length (clean win full d))%nat) by (apply (f_equal (@length N)) in Ec; rewrite !app_length in Ec; lia).
    apply (f_equal (skipn (length cut))) in Ec. rewrite skipn_app_exact, skipn_app in Ec. replace (length cut - length (clean win full d))%nat with 0%nat in Ec by lia. cbn [skipn] in Ec.
    eexists. rewrite <- Ec. rewrite app_comm_cons, app_assoc. reflexivity. }
  destruct (K d1 max1 B1 P1) as (x & E1). destruct (K d2 max2 B2 P2) as (y & E2). rewrite E1 in E2. apply app_same_tail in E2; [exact E2|]. now rewrite !(h8_len hash Hh).
Qed.

(** Refuted: "the returned path is shortened to max_len". *)
Definition hash0 (d : str) : str := firstn 20 (map (fun c => c mod 256) d ++ repeat 0 20).
Lemma hash0_ok d : is_bytes (hash0 d) /\ length (hash0 d) = 20%nat.
Proof.
  unfold hash0. split.
  - apply firstn_bytes, Forall_app. split; [apply Forall_map, Forall_forall; intros c _; apply N.mod_lt; discriminate|]. apply Forall_forall. intros c H. apply repeat_spec in H. subst. reflexivity.
  - rewrite firstn_length, app_length, repeat_length. lia.
Qed.
Definition id_full (d : str) : str := d.
Theorem C63_max_len_refuted : exists appdata p, cache_path true id_full hash0 appdata [67; 58; 92; 97] 218 = Ok p /\ (length p = 251)%nat.
Proof. exists (repeat 120 217). eexists. split; [vm_compute; reflexivity|vm_compute; reflexivity]. Qed.
(** Refuted for Linux workstations: different directories have different sessions. In a file
    name a backslash is an ordinary character there; the session for "/a\b" is added to the
    one that streams "/a/b". *)
Theorem C63_backslash_refuted : forall hash, exists t,
  history (cache_dir false id_full hash) [(Start [104; 49; 58; 47; 109] [47; 97; 47; 98], AOk); (Start [104; 50; 58; 47; 109] [47; 97; 92; 98], AOk)] t /\
  length t = 1%nat /\ streams t [104; 49; 58; 47; 109] (cache_dir false id_full hash [47; 97; 47; 98]) /\ streams t [104; 50; 58; 47; 109] (cache_dir false id_full hash [47; 97; 47; 98]).
Proof.
  intros hash. set (k := cache_dir false id_full hash [47; 97; 47; 98]).
  assert (E : cache_dir false id_full hash [47; 97; 92; 98] = k) by reflexivity.
  exists [(k, mkms [[104; 49; 58; 47; 109]; [104; 50; 58; 47; 109]] false false)].
  assert (Sk : seqb k k = true) by (unfold seqb; destruct (str_dec k k); congruence).
  split; [|split; [reflexivity|split]].
  - set (t1 := [(k, mkms [[104; 49; 58; 47; 109]] false false)]).
    refine (h_op _ [] [(Start [104; 49; 58; 47; 109] [47; 97; 47; 98], AOk)] t1 all_good (Start [104; 50; 58; 47; 109] [47; 97; 92; 98]) AOk _ (h_op _ [] [] [] all_good _ AOk t1 (h_nil _ _) _) _).
    + cbn [perform]. unfold start_session. fold k. cbn [valid_dir all_good negb get stop_internal find_session init_ok put].
      unfold ms_start. cbn [m_sessions mem existsb m_failed start_ok all_good negb m_down ack_ok put]. rewrite Sk. reflexivity.
    + cbn [perform]. unfold start_session. rewrite E. unfold t1. cbn [valid_dir all_good negb get]. rewrite Sk. cbn [get m_sessions]. vm_compute mem. cbv iota beta.
      unfold stop_internal. cbn [find_session m_sessions]. vm_compute mem. cbv iota beta. cbn [get]. rewrite Sk.
      unfold ms_start. cbn [m_sessions]. vm_compute mem. cbn [m_failed start_ok all_good negb m_down ack_ok put]. rewrite Sk. reflexivity.
  - eexists. cbn [get]. rewrite Sk. split; [reflexivity|now left].
  - eexists. cbn [get]. rewrite Sk. split; [reflexivity|right; now left].
Qed.

(** Examples: a path that is shortened within a name with code points of two bytes. *)
Example name_ex : cache_dir true id_full hash0 [67; 58; 92; 71] = [99; 95; 95; 103; 95; 54; 51; 51; 97; 50; 102; 54; 55].
Proof. vm_compute. reflexivity. Qed.
Example spelling_ex : same_spelling true [67; 58; 92; 71] [99; 58; 47; 103; 47].
Proof. exists [67; 58; 92; 71; 92], [99; 58; 47; 103; 47]. split; [right; split; [|exists 92; split; [now right|reflexivity]]|split; [left; split; [reflexivity|exists [99; 58; 47; 103], 47; split; [reflexivity|now left]]|]].
  - intros (r & c & X & Y). change [67; 58; 92; 71] with ([67; 58; 92] ++ [71]) in X. apply app_inj_tail in X. destruct X as (_ & <-). destruct Y; discriminate.
  - repeat (apply Forall2_cons; [unfold char_eq, sep; first [left; reflexivity|right; left; lia|right; right; split; [reflexivity|lia]]|]). apply Forall2_nil.
Qed.
Example shorten_ex : exists p, cache_path false id_full hash0 [47; 104] [47; 195; 164; 195; 164] 38 = Ok p /\ length p = 37%nat /\ utf8 [47; 195; 164; 195; 164].
Proof.
  eexists. split; [vm_compute; reflexivity|]. split; [vm_compute; reflexivity|].
  apply (u_cons [47]); [constructor; lia|]. apply (u_cons [195; 164]); [constructor; unfold tail_byte; lia|]. apply (u_cons [195; 164] []); [constructor; unfold tail_byte; lia|constructor].
Qed.
