(** Proofs for C72. *)
From Verif Require Import Base ListX Str ModelIndexer SpecIndexer ProofIndexer ModelBuckets SpecBuckets.
From Coq Require Import Sorting.Sorted.
Local Open Scope N_scope.

Section Classes.
Variables mn st : N.
Hypothesis Hst : 1 <= st.
Notation cl := (class mn st).

Definition next (b : N) : N := if b <? mn then 2 * b else b + st.

Lemma cl_pos b : cl b -> 1024 <= b.
Proof. clear Hst. induction 1; lia. Qed.
Lemma cl_next b : cl b -> cl (next b).
Proof. intros H. unfold next. destruct (N.ltb_spec b mn); [apply c_double|apply c_step]; assumption. Qed.
Lemma next_gt b : cl b -> b < next b.
Proof. intros H. pose proof (cl_pos b H). unfold next. destruct (b <? mn); lia. Qed.

Lemma cl_iter b : cl b <-> exists n, b = Nat.iter n next 1024.
Proof.
  split.
  - induction 1 as [|b H [n E] L|b H [n E] L].
    + exists O. reflexivity.
    + exists (S n). cbn [Nat.iter nat_rect]. change (2 * b = next (Nat.iter n next 1024)). rewrite <- E. unfold next. destruct (N.ltb_spec b mn); lia.
    + exists (S n). change (b + st = next (Nat.iter n next 1024)). rewrite <- E. unfold next. destruct (N.ltb_spec b mn); lia.
  - intros [n ->]. induction n as [|n IH]; [constructor|]. exact (cl_next _ IH).
Qed.

Lemma iter_mono n k : Nat.iter n next 1024 <= Nat.iter (k + n) next 1024.
Proof.
  induction k as [|k IH]; [apply N.le_refl|]. cbn [Nat.add].
  assert (C : cl (Nat.iter (k + n) next 1024)) by (apply cl_iter; eauto).
  pose proof (next_gt _ C). change (Nat.iter (S (k + n)) next 1024) with (next (Nat.iter (k + n) next 1024)). lia.
Qed.

(** There is no class between a class and the next one. *)
Lemma cl_succ a b : cl a -> cl b -> a < b -> next a <= b.
Proof.
  intros Ha Hb L. apply cl_iter in Ha as [n ->]. apply cl_iter in Hb as [k ->].
  destruct (Nat.lt_ge_cases n k) as [I|I].
  - change (next (Nat.iter n next 1024)) with (Nat.iter (S n) next 1024).
    replace k with ((k - S n) + S n)%nat by lia. apply iter_mono.
  - exfalso. pose proof (iter_mono k (n - k)) as X. replace (n - k + k)%nat with n in X by lia. lia.
Qed.

(** SizeBucket *)
Lemma pow_class size : size <= 2 ^ 62 -> forall fuel b b', cl b ->
  (forall x, cl x -> x < b -> x < size) -> bucket_pow fuel mn size b = Ok b' ->
  cl b' /\ (forall x, cl x -> x < b' -> x < size) /\ (size <= b' \/ mn <= b').
Proof.
  intros Hs. induction fuel as [|f IH]; intros b b' C L H; cbn [bucket_pow] in H.
  - destruct ((b <? size) && (b <? mn) && (b <? 2 ^ 63)) eqn:B; [discriminate|]. injection H as <-.
    split; [exact C|]. split; [exact L|].
    assert (2 ^ 62 < 2 ^ 63) by reflexivity. lia.
  - destruct ((b <? size) && (b <? mn) && (b <? 2 ^ 63)) eqn:B.
    + apply andb_true_iff in B as [B B3]. apply andb_true_iff in B as [B1 B2]. apply N.ltb_lt in B1, B2, B3.
      assert (E : w64 (2 * b) = next b).
      { unfold w64, next. destruct (N.ltb_spec b mn); [|lia]. apply N.mod_small.
        change (2 ^ 64) with (2 * 2 ^ 63). lia. }
      rewrite E in H. apply (IH _ _ (cl_next b C)) in H; [exact H|].
      intros x Cx Lx. destruct (N.lt_ge_cases b x) as [I|I]; [|lia].
      pose proof (cl_succ b x C Cx I). lia.
    + injection H as <-. split; [exact C|]. split; [exact L|].
      assert (2 ^ 62 < 2 ^ 63) by reflexivity. lia.
Qed.

Lemma step_class size : size <= 2 ^ 62 -> st <= 2 ^ 62 -> forall fuel b b', cl b ->
  (forall x, cl x -> x < b -> x < size) -> size <= b \/ mn <= b -> bucket_step fuel st size b = Ok b' ->
  cl b' /\ (forall x, cl x -> x < b' -> x < size) /\ size <= b'.
Proof.
  intros Hs Ht. assert (W : 2 ^ 62 < 2 ^ 63 /\ 2 ^ 63 < 2 ^ 64 /\ 2 ^ 62 + 2 ^ 62 = 2 ^ 63) by (repeat split; reflexivity).
  induction fuel as [|f IH]; intros b b' C L M H; cbn [bucket_step] in H.
  - destruct ((b <? size) && (b <? 2 ^ 63)) eqn:B; [discriminate|]. injection H as <-.
    split; [exact C|]. split; [exact L|]. lia.
  - destruct ((b <? size) && (b <? 2 ^ 63)) eqn:B.
    + apply andb_true_iff in B as [B1 B2]. apply N.ltb_lt in B1, B2.
      assert (E : w64 (b + st) = next b).
      { unfold w64, next. destruct (N.ltb_spec b mn); [lia|]. apply N.mod_small. lia. }
      rewrite E in H. apply (IH _ _ (cl_next b C)) in H; [exact H| |].
      * intros x Cx Lx. destruct (N.lt_ge_cases b x) as [I|I]; [|lia].
        pose proof (cl_succ b x C Cx I). lia.
      * pose proof (next_gt b C). right. lia.
    + injection H as <-. split; [exact C|]. split; [exact L|]. lia.
Qed.

(** Loops over the rows *)
Lemma rows_step (M : N) : M <= 2 ^ 63 -> st <= 2 ^ 62 -> forall fuel s, cl s -> mn <= s ->
  M < s + N.of_nat fuel * st ->
  exists l, step_rows fuel st s M = Ok l /\ StronglySorted N.lt l /\ forall x, In x l <-> cl x /\ s <= x <= M.
Proof.
  intros HM Ht. assert (W : 2 ^ 63 + 2 ^ 62 < 2 ^ 64) by reflexivity.
  induction fuel as [|f IH]; intros s C G F; cbn [step_rows].
  - destruct (N.leb_spec s M); [lia|]. eexists. split; [reflexivity|]. split; [constructor|].
    intros x. split; [intros []|lia].
  - destruct (N.leb_spec s M) as [L|L].
    + assert (E : w64 (s + st) = s + st) by (apply N.mod_small; lia). rewrite E.
      destruct (IH (s + st)) as (l & El & Sl & Hl); [apply c_step; assumption|lia|rewrite Nat2N.inj_succ, N.mul_succ_l in F; lia|].
      rewrite El. cbn [bind]. eexists. split; [reflexivity|]. split.
      * constructor; [exact Sl|]. apply Forall_forall. intros x I. apply Hl in I. lia.
      * intros x. cbn [In]. rewrite Hl. split.
        -- intros [<-|(Cx & I)]; [split; [exact C|lia]|split; [exact Cx|lia]].
        -- intros (Cx & I). destruct (N.eq_dec s x) as [->|Ne]; [left; reflexivity|right].
           split; [exact Cx|]. assert (s < x) by lia. pose proof (cl_succ s x C Cx H) as X.
           unfold next in X. destruct (N.ltb_spec s mn); lia.
    + eexists. split; [reflexivity|]. split; [constructor|]. intros x. split; [intros []|lia].
Qed.

Lemma rows_pow (M : N) : M <= 2 ^ 63 -> cl M -> forall fuel s, cl s -> s <= M -> 2 ^ 63 < s * 2 ^ N.of_nat fuel ->
  exists l s', pow_rows fuel s (N.min mn M) = Ok (l, s') /\ StronglySorted N.lt l /\ cl s' /\ s <= s' <= M /\
    (mn <= s' \/ s' = M) /\ forall x, In x l <-> cl x /\ s <= x < s'.
Proof.
  intros HM CM. assert (W : 2 ^ 64 = 2 * 2 ^ 63) by reflexivity.
  induction fuel as [|f IH]; intros s C G F; cbn [pow_rows].
  - exfalso. change (2 ^ N.of_nat 0) with 1 in F. lia.
  - destruct (N.ltb_spec s (N.min mn M)) as [L|L].
    + assert (Hn : next s = 2 * s) by (unfold next; destruct (N.ltb_spec s mn); lia).
      pose proof (cl_succ s M C CM ltac:(lia)) as X. rewrite Hn in X.
      assert (E : w64 (2 * s) = 2 * s) by (apply N.mod_small; lia). rewrite E.
      pose proof (cl_next s C) as Cn. rewrite Hn in Cn.
      destruct (IH (2 * s)) as (l & s' & El & Sl & C' & L' & D & Hl); [exact Cn|exact X| |].
      { rewrite Nat2N.inj_succ, N.pow_succ_r' in F. lia. }
      rewrite El. cbn [bind fst snd]. eexists _, _. split; [reflexivity|].
      pose proof (cl_pos s C).
      split. { constructor; [exact Sl|]. apply Forall_forall. intros x I. apply Hl in I. lia. }
      split; [exact C'|]. split; [lia|]. split; [exact D|].
      intros x. cbn [In]. rewrite Hl. split.
      * intros [<-|(Cx & I)]; [split; [exact C|lia]|split; [exact Cx|lia]].
      * intros (Cx & I). destruct (N.eq_dec s x) as [->|Ne]; [left; reflexivity|right].
        split; [exact Cx|]. assert (Q : s < x) by lia. pose proof (cl_succ s x C Cx Q). lia.
    + eexists _, _. split; [reflexivity|]. split; [constructor|]. split; [exact C|]. split; [lia|].
      split; [lia|]. intros x. split; [intros []|lia].
Qed.

(** A row that starts and ends in the doubling part. *)
Lemma rows_end s : cl s -> s < mn -> s < 2 ^ 63 -> st <= 2 ^ 62 -> forall fuel, step_rows (S fuel) st s s = Ok [s].
Proof.
  intros C L B Ht fuel. cbn [step_rows]. destruct (N.leb_spec s s); [|lia].
  assert (W : 2 ^ 63 + 2 ^ 62 < 2 ^ 64) by reflexivity.
  assert (E : w64 (s + st) = s + st) by (apply N.mod_small; lia). rewrite E.
  destruct fuel; cbn [step_rows]; (destruct (N.leb_spec (s + st) s); [lia|]); reflexivity.
Qed.
End Classes.

(** ** The map *)
Lemma lookup_count b m : NoDup (map fst m) -> lookup b m = count_at b m.
Proof.
  unfold lookup, count_at. induction m as [|[k v] m IH]; intros D; [reflexivity|].
  cbn [map fst] in D. inversion D as [|? ? Nk D']; subst. cbn [find sum fst snd].
  destruct (N.eqb_spec k b) as [->|Ne].
  - cbn [snd]. assert (sum (fun x => if fst x =? b then snd x else 0) m = 0); [|lia].
    clear - Nk. induction m as [|[k v] m IH]; [reflexivity|]. cbn [sum fst snd].
    destruct (N.eqb_spec k b) as [->|]; [elim Nk; left; reflexivity|]. rewrite IH; [lia|].
    intros I. apply Nk. right. exact I.
  - rewrite IH by exact D'. lia.
Qed.

Lemma lookups_sum l m : lookups l m = sum (fun b => lookup b m) l.
Proof. induction l as [|b l IH]; cbn; [reflexivity|]. rewrite IH. reflexivity. Qed.

(** Counts of different rows that contain every key add up to everything. *)
Lemma count_rows l m : NoDup l -> sum (fun b => count_at b m) l = sum (fun e => if in_dec N.eq_dec (fst e) l then snd e else 0) m.
Proof.
  intros D. induction m as [|[k v] m IH].
  - unfold count_at. cbn [sum]. clear. induction l; cbn [sum]; lia.
  - cbn [sum fst snd]. rewrite <- IH. unfold count_at. cbn [sum fst snd].
    assert (forall f g : N -> N, sum (fun b => f b + g b) l = sum f l + sum g l) as ->.
    { intros f g. clear. induction l as [|b l IH]; cbn [sum]; [reflexivity|lia]. }
    f_equal. clear - D. induction D as [|b l Nb D IH]; [destruct (in_dec _ _ _) as [[]|]; reflexivity|].
    cbn [sum]. rewrite IH. destruct (N.eqb_spec k b) as [->|Ne].
    + destruct (in_dec N.eq_dec b l); [contradiction|]. destruct (in_dec N.eq_dec b (b :: l)) as [|Q]; [lia|].
      elim Q. left. reflexivity.
    + destruct (in_dec N.eq_dec k l), (in_dec N.eq_dec k (b :: l)) as [Q|Q]; cbn [In] in Q; try tauto; try lia.
      destruct Q; [congruence|contradiction].
Qed.

Lemma scan_spec fmin fmax m : forall x, let y := fold_left (scan_one fmin fmax) m x in
  lo y = fold_right (fun e a => N.min (fst e) a) (lo x) m /\
  hi y = fold_right (fun e a => N.max (fst e) a) (hi x) m /\
  most y = fold_right (fun e a => N.max (snd e) a) (most x) m /\
  outside y = outside x + sum (fun e => (if fst e <? fmin then snd e else 0) +
     (if (0 <? fmax) && (fmax <? fst e) then snd e else 0)) m /\
  total y = total x + sum snd m.
Proof.
  assert (R : forall (g : N * N -> N) l z w, fold_right (fun e a => N.min (g e) a) (N.min w z) l =
              N.min w (fold_right (fun e a => N.min (g e) a) z l)).
  { intros g l z w. induction l as [|e l IH]; cbn; [reflexivity|]. rewrite IH. lia. }
  assert (R' : forall (g : N * N -> N) l z w, fold_right (fun e a => N.max (g e) a) (N.max w z) l =
              N.max w (fold_right (fun e a => N.max (g e) a) z l)).
  { intros g l z w. induction l as [|e l IH]; cbn; [reflexivity|]. rewrite IH. lia. }
  induction m as [|[k v] m IH]; intros x; cbn [fold_left fold_right sum fst snd].
  - repeat split; lia.
  - specialize (IH (scan_one fmin fmax x (k, v))). cbv zeta in IH. destruct IH as (A & B & C & D & E).
    rewrite A, B, C, D, E. cbn [scan_one lo hi most outside total].
    split. { rewrite <- R. f_equal. destruct (N.ltb_spec k (lo x)); lia. }
    split. { rewrite <- R'. f_equal. destruct (N.ltb_spec (hi x) k); lia. }
    split. { rewrite <- R'. f_equal. destruct (N.ltb_spec (most x) v); lia. }
    split; lia.
Qed.

Lemma count_if_sum p m : count_if p m = sum (fun e => if p (fst e) then snd e else 0) m.
Proof.
  unfold count_if. assert (G : forall a, fold_left (fun a e => if p (fst e) then a + snd e else a) m a = a + sum (fun e => if p (fst e) then snd e else 0) m).
  { induction m as [|e m IH]; intros a; cbn [fold_left sum]; [lia|]. rewrite IH. destruct (p (fst e)); lia. }
  apply G.
Qed.

Lemma min_in m z : let y := fold_right (fun (e : N * N) a => N.min (fst e) a) z m in
  (forall e, In e m -> y <= fst e) /\ y <= z /\ (y = z \/ exists e, In e m /\ y = fst e).
Proof.
  induction m as [|e m (A & B & C)]; cbn [fold_right].
  - split; [intros e []|]. split; [lia|]. left. reflexivity.
  - cbv zeta in *. split; [intros x [->|I]; [lia|specialize (A x I); lia]|]. split; [lia|].
    destruct (N.min_spec (fst e) (fold_right (fun (e : N * N) a => N.min (fst e) a) z m)) as [[? ->]|[? ->]].
    + right. exists e. split; [left; reflexivity|reflexivity].
    + destruct C as [C|(x & I & C)]; [left; exact C|right; exists x; split; [right; exact I|exact C]].
Qed.
Lemma max_in (g : N * N -> N) m : let y := fold_right (fun (e : N * N) a => N.max (g e) a) 0 m in
  (forall e, In e m -> g e <= y) /\ (m = [] \/ exists e, In e m /\ y = g e).
Proof.
  induction m as [|e m (A & C)]; cbn [fold_right].
  - split; [intros e []|]. left. reflexivity.
  - cbv zeta in *. split; [intros x [->|I]; [lia|specialize (A x I); lia]|]. right.
    destruct (N.max_spec (g e) (fold_right (fun (e : N * N) a => N.max (g e) a) 0 m)) as [[? ->]|[? ->]].
    + destruct C as [->|(x & I & C)]; [cbn [fold_right] in *; lia|]. exists x. split; [right; exact I|exact C].
    + exists e. split; [left; reflexivity|reflexivity].
Qed.
