(** Proofs for C80. *)
From Verif Require Import Base ListX SpecBuffer ModelBuffer.
Local Open Scope N_scope.

Definition block (s : state) (i : nat) : list (option N) :=
  match data (bufs s i) with
  | None => []
  | Some p => match heap s p with Some m => m | None => [] end
  end.
Record Inv (s : state) : Prop := mkinv {
  i_live : forall i p, data (bufs s i) = Some p -> (p < next s)%nat /\ exists m, heap s p = Some m /\ N.of_nat (length m) = capacity (bufs s i);
  i_null : forall i, data (bufs s i) = None -> capacity (bufs s i) = 0;
  i_own : forall i j p, data (bufs s i) = Some p -> data (bufs s j) = Some p -> i = j;
  i_leak : forall p, heap s p <> None -> (p < next s)%nat /\ exists i, data (bufs s i) = Some p }.

Lemma block_length s i : Inv s -> N.of_nat (length (block s i)) = capacity (bufs s i).
Proof.
  intro I. unfold block. destruct (data (bufs s i)) as [p|] eqn:E.
  - destruct (i_live s I i p E) as (_ & m & -> & H). exact H.
  - rewrite (i_null s I i E). reflexivity.
Qed.
Lemma contents_block s i : contents s i = firstn (N.to_nat (size (bufs s i))) (block s i).
Proof. unfold contents, block. destruct (data (bufs s i)) as [p|]; [destruct (heap s p)|]; rewrite ?firstn_nil; reflexivity. Qed.
Lemma bufs_set s i b j : bufs (set_buffer s i b) j = if Nat.eqb j i then b else bufs s j.
Proof. reflexivity. Qed.

Lemma free_null s i b : Inv s -> data b = None -> capacity b = 0 ->
  exists s1, free s (data (bufs s i)) = Ok s1 /\ bufs s1 = bufs s /\ next s1 = next s /\ Inv (set_buffer s1 i b) /\
    (forall j, j <> i -> block (set_buffer s1 i b) j = block s j).
Proof.
  intros I Hd Hc. unfold free. destruct (data (bufs s i)) as [q|] eqn:E.
  - destruct (i_live s I i q E) as (Hq & m & Em & Hm). rewrite Em. eexists. split; [reflexivity|]. cbn [bufs next]. split; [reflexivity|]. split; [reflexivity|].
    split.
    + split; cbn [set_buffer bufs heap next].
      * intros j p. destruct (Nat.eqb_spec j i) as [->|Hj]; [congruence|]. intro Ej. destruct (i_live s I j p Ej) as (Hp & m' & Em' & Hm').
        split; [exact Hp|]. exists m'. split; [|exact Hm']. unfold set_block. destruct (Nat.eqb_spec p q) as [->|]; [|exact Em'].
        destruct Hj. exact (i_own s I j i q Ej E).
      * intros j. destruct (Nat.eqb_spec j i) as [->|Hj]; [intros _; exact Hc|]. apply (i_null s I).
      * intros j k p. destruct (Nat.eqb_spec j i) as [->|Hj]; [congruence|]. destruct (Nat.eqb_spec k i) as [->|Hk]; [congruence|]. apply (i_own s I).
      * intros p. unfold set_block. destruct (Nat.eqb_spec p q) as [->|Hp]; [congruence|]. intro H. destruct (i_leak s I p H) as (Hl & j & Ej).
        split; [exact Hl|]. exists j. destruct (Nat.eqb_spec j i) as [->|]; [congruence|exact Ej].
    + intros j Hj. unfold block. cbn [set_buffer bufs heap]. destruct (Nat.eqb_spec j i) as [->|_]; [congruence|].
      destruct (data (bufs s j)) as [p|] eqn:Ej; [|reflexivity]. unfold set_block. destruct (Nat.eqb_spec p q) as [->|]; [|reflexivity].
      destruct Hj. exact (i_own s I j i q Ej E).
  - eexists. split; [reflexivity|]. split; [reflexivity|]. split; [reflexivity|]. split.
    + split; cbn [set_buffer bufs heap next].
      * intros j p. destruct (Nat.eqb_spec j i) as [->|Hj]; [congruence|]. apply (i_live s I).
      * intros j. destruct (Nat.eqb_spec j i) as [->|Hj]; [intros _; exact Hc|]. apply (i_null s I).
      * intros j k p. destruct (Nat.eqb_spec j i) as [->|Hj]; [congruence|]. destruct (Nat.eqb_spec k i) as [->|Hk]; [congruence|]. apply (i_own s I).
      * intros p H. destruct (i_leak s I p H) as (Hl & j & Ej).
        split; [exact Hl|]. exists j. destruct (Nat.eqb_spec j i) as [->|]; [congruence|exact Ej].
    + intros j Hj. unfold block. cbn [set_buffer bufs heap]. destruct (Nat.eqb_spec j i) as [->|_]; [congruence|reflexivity].
Qed.

(** A new block for a buffer that has none. *)
Lemma attach s i m sz c : Inv s -> data (bufs s i) = None -> N.of_nat (length m) = c ->
  let s' := set_buffer (mks (set_block (heap s) (next s) (Some m)) (Datatypes.S (next s)) (bufs s)) i (mkb (Some (next s)) sz c) in
  Inv s' /\ block s' i = m /\ (forall j, j <> i -> block s' j = block s j).
Proof.
  intros I E Hm s'. subst s'. assert (Hfresh : forall j, data (bufs s j) <> Some (next s)).
  { intros j Ej. destruct (i_live s I j _ Ej) as (H & _). lia. }
  split; [split; cbn [set_buffer bufs heap next]|split].
  - intros j p. unfold set_block. destruct (Nat.eqb_spec j i) as [->|Hj].
    + cbn [data capacity]. intro H. injection H as <-. split; [lia|]. exists m. rewrite Nat.eqb_refl. auto.
    + intro Ej. destruct (i_live s I j p Ej) as (Hp & m' & H1 & H2). split; [lia|]. exists m'. split; [|exact H2].
      destruct (Nat.eqb_spec p (next s)); [lia|exact H1].
  - intros j. destruct (Nat.eqb_spec j i) as [->|Hj]; [discriminate|]. apply (i_null s I).
  - intros j k p. destruct (Nat.eqb_spec j i) as [->|Hj]; destruct (Nat.eqb_spec k i) as [->|Hk]; cbn [data].
    + reflexivity.
    + intros H1 H2. injection H1 as <-. destruct (Hfresh k H2).
    + intros H1 H2. injection H2 as <-. destruct (Hfresh j H1).
    + apply (i_own s I).
  - intros p. unfold set_block. destruct (Nat.eqb_spec p (next s)) as [->|Hp].
    + intros _. split; [lia|]. exists i. rewrite Nat.eqb_refl. reflexivity.
    + intro H. destruct (i_leak s I p H) as (Hl & j & Ej). split; [lia|]. exists j. destruct (Nat.eqb_spec j i) as [->|]; [congruence|exact Ej].
  - unfold block. cbn [set_buffer bufs heap]. rewrite Nat.eqb_refl. cbn [data]. unfold set_block. rewrite Nat.eqb_refl. reflexivity.
  - intros j Hj. unfold block. cbn [set_buffer bufs heap]. destruct (Nat.eqb_spec j i) as [->|_]; [congruence|].
    destruct (data (bufs s j)) as [p|] eqn:Ej; [|reflexivity]. unfold set_block. destruct (Nat.eqb_spec p (next s)) as [->|]; [|reflexivity].
    destruct (Hfresh j Ej).
Qed.

Lemma free_frame s p s1 : free s p = Ok s1 -> bufs s1 = bufs s /\ next s1 = next s.
Proof. unfold free. destruct p as [q|]; [destruct (heap s q)|]; intro H; try discriminate H; injection H as <-; auto. Qed.

Lemma realloc_ok avail s i n sz : Inv s -> n <= avail ->
  exists s1, realloc avail s (data (bufs s i)) n = Ok (s1, Some (next s)) /\ next s1 = Datatypes.S (next s) /\ bufs s1 = bufs s /\
    let s' := set_buffer s1 i (mkb (Some (next s)) sz n) in
    Inv s' /\ block s' i = firstn (N.to_nat n) (block s i) ++ repeat None (N.to_nat n - length (block s i)) /\
    (forall j, j <> i -> block s' j = block s j).
Proof.
  intros I Hn. unfold realloc. destruct (N.ltb_spec avail n); [lia|].
  assert (Eo : (match data (bufs s i) with None => Ok [] | Some q => match heap s q with Some m => Ok m | None => UB end end) = Ok (block s i)).
  { unfold block. destruct (data (bufs s i)) as [q|] eqn:E; [|reflexivity]. destruct (i_live s I i q E) as (_ & m & -> & _). reflexivity. }
  rewrite Eo. cbn [bind].
  destruct (free_null s i no_buffer I eq_refl eq_refl) as (s0 & Ef & Eb & En & I0 & Hj). rewrite Ef. cbn [bind]. rewrite <- En.
  eexists. split; [reflexivity|]. cbn [next bufs]. split; [reflexivity|]. split; [exact Eb|].
  set (m := firstn _ _ ++ _).
  destruct (attach (set_buffer s0 i no_buffer) i m sz n I0) as (A1 & A2 & A3).
  { cbn [set_buffer bufs]. rewrite Nat.eqb_refl. reflexivity. }
  { unfold m. rewrite app_length, firstn_length, repeat_length. lia. }
  cbv zeta. cbn [set_buffer heap next bufs] in A1, A2, A3.
  assert (Ex : forall t, Inv t -> forall t', heap t = heap t' -> next t = next t' -> (forall k, bufs t k = bufs t' k) -> Inv t').
  { intros t [T1 T2 T3 T4] t' H1 H2 H3. split.
    - intros a p. rewrite <- !H3, <- H1, <- H2. apply T1.
    - intro a. rewrite <- !H3. apply T2.
    - intros a b p. rewrite <- !H3. apply T3.
    - intros p. rewrite <- H1, <- H2. intro Hp. destruct (T4 p Hp) as (Hl & a & Ha). split; [exact Hl|]. exists a. rewrite <- H3. exact Ha. }
  assert (Eq : forall k, bufs (set_buffer (mks (set_block (heap s0) (next s0) (Some m)) (Datatypes.S (next s0)) (fun j => if Nat.eqb j i then no_buffer else bufs s0 j)) i (mkb (Some (next s0)) sz n)) k =
    bufs (set_buffer (mks (set_block (heap s0) (next s0) (Some m)) (Datatypes.S (next s0)) (bufs s0)) i (mkb (Some (next s0)) sz n)) k).
  { intro k. cbn [set_buffer bufs]. destruct (Nat.eqb k i); reflexivity. }
  assert (Eblk : forall k, block (set_buffer (mks (set_block (heap s0) (next s0) (Some m)) (Datatypes.S (next s0)) (bufs s0)) i (mkb (Some (next s0)) sz n)) k =
    block (set_buffer (mks (set_block (heap s0) (next s0) (Some m)) (Datatypes.S (next s0)) (fun j => if Nat.eqb j i then no_buffer else bufs s0 j)) i (mkb (Some (next s0)) sz n)) k).
  { intro k. unfold block. rewrite <- Eq. reflexivity. }
  split; [|split].
  - refine (Ex _ A1 _ _ _ Eq); reflexivity.
  - rewrite Eblk. exact A2.
  - intros j Hji. rewrite Eblk, (A3 j Hji). apply Hj. exact Hji.
Qed.

(** ** Agreement *)
Lemma agrees_length x y : agrees x y -> length x = length y.
Proof. induction 1; cbn; lia. Qed.
Lemma agrees_app a b c d : agrees a b -> agrees c d -> agrees (a ++ c) (b ++ d).
Proof. apply Forall2_app. Qed.
Lemma agrees_firstn k a b : agrees a b -> agrees (firstn k a) (firstn k b).
Proof. intro H. revert k. induction H; intros [|k]; cbn; constructor; auto. apply IHForall2. Qed.
Lemma agrees_skipn k a b : agrees a b -> agrees (skipn k a) (skipn k b).
Proof. intro H. revert k. induction H; intros [|k]; cbn; [constructor|constructor|constructor; auto|apply IHForall2]. Qed.
Lemma agrees_none l : agrees (repeat None (length l)) l.
Proof. induction l; cbn; constructor; auto. Qed.
Lemma agrees_refl l : agrees l l.
Proof. induction l; constructor; auto. Qed.
Lemma agrees_resized x blk n : (length x <= length blk)%nat -> (n <= length blk)%nat -> agrees x (firstn (length x) blk) ->
  agrees (resized x n) (firstn n blk).
Proof.
  intros H1 H2 H. unfold resized. destruct (Nat.le_gt_cases n (length x)) as [Hn|Hn].
  - replace (n - length x)%nat with 0%nat by lia. cbn [repeat]. rewrite app_nil_r. apply (agrees_firstn n) in H. rewrite firstn_firstn in H.
    replace (Nat.min n (length x)) with n in H by lia. exact H.
  - rewrite (firstn_all2 x) by lia. replace (firstn n blk) with (firstn (length x) blk ++ firstn (n - length x) (skipn (length x) blk)).
    + apply agrees_app; [exact H|]. replace (n - length x)%nat with (length (firstn (n - length x) (skipn (length x) blk))) at 1; [apply agrees_none|].
      rewrite firstn_length, skipn_length. lia.
    + replace n with (length x + (n - length x))%nat at 2 by lia. rewrite <- (firstn_skipn (length x) blk) at 3. rewrite firstn_app.
      rewrite firstn_length. replace (Nat.min (length x) (length blk)) with (length x) by lia.
      rewrite (firstn_all2 (firstn (length x) blk)) by (rewrite firstn_length; lia). do 2 f_equal. lia.
Qed.

(** ** Refinement *)
Definition good (b : buffer) (blk : list (option N)) (x : vector) : Prop :=
  size b = N.of_nat (length x) /\ size b <= capacity b /\ agrees x (firstn (length x) blk).
Definition R (s : state) (v : nat -> vector) : Prop := Inv s /\ forall i, good (bufs s i) (block s i) (v i).

Lemma R_ext s v w : R s v -> (forall i, v i = w i) -> R s w.
Proof. intros [I H] E. split; [exact I|]. intro i. rewrite <- E. apply H. Qed.
(** Only one buffer changes. *)
Lemma R_frame s v s' i x : R s v -> Inv s' -> (forall j, j <> i -> bufs s' j = bufs s j) -> (forall j, j <> i -> block s' j = block s j) ->
  good (bufs s' i) (block s' i) x -> R s' (set_vector v i x).
Proof.
  intros [I H] I' H1 H2 Hi. split; [exact I'|]. intro j. unfold set_vector. destruct (Nat.eqb_spec j i) as [->|Hj]; [exact Hi|].
  rewrite (H1 j Hj), (H2 j Hj). apply H.
Qed.

(** The size and what is behind it do not matter for the invariant. *)
Lemma Inv_size s i n : Inv s -> Inv (set_buffer s i (mkb (data (bufs s i)) n (capacity (bufs s i)))) /\
  forall j, block (set_buffer s i (mkb (data (bufs s i)) n (capacity (bufs s i)))) j = block s j.
Proof.
  intro I. assert (Ed : forall j, data (bufs (set_buffer s i (mkb (data (bufs s i)) n (capacity (bufs s i)))) j) = data (bufs s j)).
  { intro j. cbn [set_buffer bufs]. destruct (Nat.eqb_spec j i) as [->|]; reflexivity. }
  assert (Ec : forall j, capacity (bufs (set_buffer s i (mkb (data (bufs s i)) n (capacity (bufs s i)))) j) = capacity (bufs s j)).
  { intro j. cbn [set_buffer bufs]. destruct (Nat.eqb_spec j i) as [->|]; reflexivity. }
  split.
  - split.
    + intros j p. rewrite Ed, Ec. apply (i_live s I).
    + intro j. rewrite Ed, Ec. apply (i_null s I).
    + intros j k p. rewrite !Ed. apply (i_own s I).
    + intros p H. destruct (i_leak s I p H) as (Hl & j & Ej). split; [exact Hl|]. exists j. rewrite Ed. exact Ej.
  - intro j. unfold block. rewrite Ed. reflexivity.
Qed.

(** resize, for a buffer that may have a size beyond its capacity. *)
Lemma resize_inv avail s i n : Inv s -> fits avail n ->
  exists s', resize avail s i n = Ok s' /\ Inv s' /\ (forall j, j <> i -> bufs s' j = bufs s j) /\ (forall j, j <> i -> block s' j = block s j) /\
    size (bufs s' i) = n /\ n <= capacity (bufs s' i) /\ exists k, block s' i = block s i ++ repeat None k.
Proof.
  intros I [F1 F2]. unfold resize, wrap. destruct (N.ltb_spec (capacity (bufs s i)) n) as [Hc|Hc].
  - rewrite N.mod_small by exact F1. pose proof (block_length s i I) as Hb.
    destruct (realloc_ok avail s i (n + n / 2) n I F2) as (s1 & -> & _ & E1 & A1 & A2 & A3).
    cbn [bind]. eexists. split; [reflexivity|]. split; [exact A1|]. split.
    { intros j Hj. rewrite bufs_set. destruct (Nat.eqb_spec j i); [congruence|]. rewrite E1. reflexivity. }
    split; [exact A3|]. rewrite bufs_set, Nat.eqb_refl. cbn [size capacity]. split; [reflexivity|]. split.
    { lia. }
    eexists. rewrite A2. rewrite firstn_all2 by lia. reflexivity.
  - destruct (Inv_size s i n I) as [A1 A2]. eexists. split; [reflexivity|]. split; [exact A1|]. split.
    { intros j Hj. rewrite bufs_set. destruct (Nat.eqb_spec j i); [congruence|reflexivity]. }
    split; [intros j _; apply A2|]. rewrite bufs_set, Nat.eqb_refl. cbn [size capacity]. split; [reflexivity|]. split; [exact Hc|].
    exists 0%nat. rewrite A2. cbn [repeat]. rewrite app_nil_r. reflexivity.
Qed.
Lemma resize_R avail s v i n : R s v -> fits avail n ->
  exists s', resize avail s i n = Ok s' /\ R s' (set_vector v i (resized (v i) (N.to_nat n))).
Proof.
  intros HR F. pose proof HR as [I H]. destruct (resize_inv avail s i n I F) as (s' & E & I' & A1 & A2 & A3 & A4 & k & A5).
  exists s'. split; [exact E|]. apply (R_frame s v s' i); auto. destruct (H i) as (G1 & G2 & G3).
  pose proof (block_length s i I) as Hb. pose proof (block_length s' i I') as Hb'.
  assert (Hl : length (resized (v i) (N.to_nat n)) = N.to_nat n).
  { unfold resized. rewrite app_length, firstn_length, repeat_length. lia. }
  unfold good. rewrite Hl. split; [lia|]. split; [lia|]. apply agrees_resized; [rewrite A5, app_length; lia|lia|].
  rewrite A5, firstn_app. replace (length (v i) - length (block s i))%nat with 0%nat by lia. cbn [firstn]. rewrite app_nil_r. exact G3.
Qed.
Lemma reserve_inv avail s i n : Inv s -> n <= avail ->
  exists s', reserve avail s i n = Ok s' /\ Inv s' /\ (forall j, j <> i -> bufs s' j = bufs s j) /\ (forall j, j <> i -> block s' j = block s j) /\
    size (bufs s' i) = size (bufs s i) /\ n <= capacity (bufs s' i) /\ capacity (bufs s i) <= capacity (bufs s' i) /\ exists k, block s' i = block s i ++ repeat None k.
Proof.
  intros I F2. unfold reserve. destruct (N.ltb_spec (capacity (bufs s i)) n) as [Hc|Hc].
  - pose proof (block_length s i I) as Hb.
    destruct (realloc_ok avail s i n (size (bufs s i)) I F2) as (s1 & -> & _ & E1 & A1 & A2 & A3).
    cbn [bind]. eexists. split; [reflexivity|]. split; [exact A1|]. split.
    { intros j Hj. rewrite bufs_set. destruct (Nat.eqb_spec j i); [congruence|]. rewrite E1. reflexivity. }
    split; [exact A3|]. rewrite bufs_set, Nat.eqb_refl. cbn [size capacity]. split; [reflexivity|]. split; [lia|]. split; [lia|].
    eexists. rewrite A2. rewrite firstn_all2 by lia. reflexivity.
  - eexists. split; [reflexivity|]. do 3 (split; [auto|]). split; [reflexivity|]. split; [exact Hc|]. split; [lia|].
    exists 0%nat. cbn [repeat]. rewrite app_nil_r. reflexivity.
Qed.
Lemma reserve_R avail s v i n : R s v -> n <= avail -> exists s', reserve avail s i n = Ok s' /\ R s' v.
Proof.
  intros HR F. pose proof HR as [I H]. destruct (reserve_inv avail s i n I F) as (s' & E & I' & A1 & A2 & A3 & A4 & A5 & k & A6).
  exists s'. split; [exact E|]. apply (R_ext s' (set_vector v i (v i))).
  - apply (R_frame s v s' i); auto. destruct (H i) as (G1 & G2 & G3). pose proof (block_length s i I) as Hb.
    unfold good. split; [lia|]. split; [lia|]. rewrite A6, firstn_app. replace (length (v i) - length (block s i))%nat with 0%nat by lia.
    cbn [firstn]. rewrite app_nil_r. exact G3.
  - intro j. unfold set_vector. destruct (Nat.eqb_spec j i) as [->|]; reflexivity.
Qed.
Lemma put_R s v i off l : R s v -> (N.to_nat off + length l <= length (v i))%nat ->
  exists s', put s i off l = Ok s' /\ R s' (set_vector v i (firstn (N.to_nat off) (v i) ++ map Some l ++ skipn (N.to_nat off + length l) (v i))).
Proof.
  intros HR Hl. pose proof HR as [I H]. destruct (H i) as (G1 & G2 & G3). pose proof (block_length s i I) as Hb. unfold put.
  destruct l as [|b l0].
  { exists s. split; [reflexivity|]. apply (R_ext s v); [exact HR|]. intro j. unfold set_vector. destruct (Nat.eqb_spec j i) as [->|]; [|reflexivity].
    cbn [length map app]. rewrite Nat.add_0_r, firstn_skipn. reflexivity. }
  set (l := b :: l0) in *. assert (Hl0 : (0 < length l)%nat) by (cbn; lia).
  destruct (data (bufs s i)) as [p|] eqn:E.
  2:{ rewrite (i_null s I i E) in G2. lia. }
  destruct (i_live s I i p E) as (Hp & m & Em & Hm). rewrite Em. assert (Eb : block s i = m) by (unfold block; rewrite E, Em; reflexivity).
  destruct (Nat.ltb_spec (length m) (N.to_nat off + length l)) as [Hx|_]; [lia|].
  eexists. split; [reflexivity|]. set (m' := firstn _ m ++ _). assert (Hm' : length m' = length m).
  { unfold m'. rewrite !app_length, firstn_length, map_length, skipn_length. lia. }
  apply (R_frame s v _ i); [exact HR| |reflexivity| |].
  - split; cbn [bufs heap next].
    + intros j q Ej. destruct (i_live s I j q Ej) as (Hq & m2 & E2 & H2). split; [exact Hq|]. unfold set_block. destruct (Nat.eqb_spec q p) as [->|].
      * exists m'. split; [reflexivity|]. rewrite Em in E2. injection E2 as <-. rewrite Hm'. exact H2.
      * exists m2. auto.
    + apply (i_null s I).
    + apply (i_own s I).
    + intros q. unfold set_block. destruct (Nat.eqb_spec q p) as [->|].
      * intros _. split; [exact Hp|]. exists i. exact E.
      * apply (i_leak s I).
  - intros j Hj. unfold block. cbn [bufs heap]. destruct (data (bufs s j)) as [q|] eqn:Ej; [|reflexivity]. unfold set_block.
    destruct (Nat.eqb_spec q p) as [->|]; [|reflexivity]. destruct Hj. exact (i_own s I j i p Ej E).
  - cbn [bufs]. match goal with |- good _ ?blk _ => replace blk with m' end.
    2:{ unfold block. cbn [bufs heap]. rewrite E. unfold set_block. rewrite Nat.eqb_refl. reflexivity. }
    rewrite Eb in *. assert (Hx : length (firstn (N.to_nat off) (v i) ++ map Some l ++ skipn (N.to_nat off + length l) (v i)) = length (v i)).
    { rewrite !app_length, firstn_length, map_length, skipn_length. lia. }
    unfold good. rewrite Hx. split; [exact G1|]. split; [exact G2|]. unfold m'.
    rewrite firstn_app, firstn_firstn. replace (Nat.min (length (v i)) (N.to_nat off)) with (N.to_nat off) by lia.
    rewrite firstn_length. replace (length (v i) - Nat.min (N.to_nat off) (length m))%nat with (length (v i) - N.to_nat off)%nat by lia.
    rewrite firstn_app, map_length. rewrite (firstn_all2 (map Some l)) by (rewrite map_length; lia).
    assert (G4 : agrees (firstn (N.to_nat off) (v i)) (firstn (N.to_nat off) m)).
    { apply (agrees_firstn (N.to_nat off)) in G3. rewrite firstn_firstn in G3. replace (Nat.min (N.to_nat off) (length (v i))) with (N.to_nat off) in G3 by lia. exact G3. }
    apply agrees_app; [exact G4|]. apply agrees_app; [apply agrees_refl|].
    apply (agrees_skipn (N.to_nat off + length l)) in G3. rewrite skipn_firstn_comm in G3.
    replace (length (v i) - N.to_nat off - length l)%nat with (length (v i) - (N.to_nat off + length l))%nat by lia. exact G3.
Qed.
Lemma append_R avail s v i l : R s v -> fits avail (N.of_nat (length (v i)) + N.of_nat (length l)) ->
  exists s', append avail s i l = Ok s' /\ R s' (set_vector v i (v i ++ map Some l)).
Proof.
  intros HR F. pose proof HR as [I H]. destruct (H i) as (G1 & G2 & G3). unfold append, wrap. rewrite G1.
  rewrite N.mod_small by (destruct F; lia).
  destruct (resize_R avail s v i _ HR F) as (s1 & -> & HR1). cbn [bind].
  set (v1 := set_vector v i _) in HR1.
  assert (E1 : v1 i = v i ++ repeat None (length l)).
  { unfold v1, set_vector. rewrite Nat.eqb_refl. unfold resized. rewrite firstn_all2 by lia. do 2 f_equal. lia. }
  destruct (put_R s1 v1 i (N.of_nat (length (v i))) l HR1) as (s2 & E2 & HR2).
  { rewrite E1, app_length, repeat_length. lia. }
  exists s2. split; [exact E2|]. apply (R_ext s2 _ _ HR2). intro j. unfold set_vector at 1 2. destruct (Nat.eqb_spec j i) as [->|Hj].
  - rewrite E1, Nat2N.id. rewrite firstn_app_exact. rewrite skipn_all2 by (rewrite app_length, repeat_length; lia). rewrite app_nil_r. reflexivity.
  - unfold v1, set_vector. destruct (Nat.eqb_spec j i); [congruence|reflexivity].
Qed.
Lemma destroy_R s v i : R s v -> exists s', destroy s i = Ok s' /\ R s' (set_vector v i []) /\ bufs s' i = no_buffer /\ block s' i = [].
Proof.
  intros HR. pose proof HR as [I H]. unfold destroy. destruct (free_null s i no_buffer I eq_refl eq_refl) as (s1 & -> & Eb & En & I1 & Hj).
  cbn [bind]. eexists. split; [reflexivity|]. assert (B1 : bufs (set_buffer s1 i no_buffer) i = no_buffer) by (rewrite bufs_set, Nat.eqb_refl; reflexivity).
  assert (B2 : block (set_buffer s1 i no_buffer) i = []) by (unfold block; rewrite B1; reflexivity).
  split; [|auto]. apply (R_frame s v _ i); auto.
  - intros j Hn. rewrite bufs_set. destruct (Nat.eqb_spec j i); [congruence|]. rewrite Eb. reflexivity.
  - rewrite B1, B2. unfold good. cbn. split; [reflexivity|]. split; [lia|constructor].
Qed.
Lemma construct_R avail s v i n : R s v -> bufs s i = no_buffer -> fits avail n ->
  exists s', construct avail s i n = Ok s' /\ R s' (set_vector v i (repeat None (N.to_nat n))).
Proof.
  intros HR Ei F. pose proof HR as [I H]. unfold construct.
  assert (E0 : mkb None n 0 = mkb (data (bufs s i)) n (capacity (bufs s i))) by (rewrite Ei; reflexivity). rewrite E0.
  destruct (Inv_size s i n I) as [I0 B0]. set (s0 := set_buffer s i _) in *.
  destruct (reserve_inv avail s0 i n I0) as (s1 & -> & I1 & A1 & A2 & A3 & A4 & A5 & k1 & A6).
  { destruct F. pose proof (N.le_0_l (n / 2)). lia. }
  cbn [bind]. destruct (resize_inv avail s1 i n I1 F) as (s2 & E2 & I2 & C1 & C2 & C3 & C4 & k2 & C5).
  exists s2. split; [exact E2|]. apply (R_frame s v s2 i); auto.
  - intros j Hj. rewrite C1, A1 by exact Hj. unfold s0. rewrite bufs_set. destruct (Nat.eqb_spec j i); [congruence|reflexivity].
  - intros j Hj. rewrite C2, A2 by exact Hj. apply B0.
  - pose proof (block_length s2 i I2) as Hb. unfold good. rewrite repeat_length. split; [lia|]. split; [lia|].
    replace (N.to_nat n) with (length (firstn (N.to_nat n) (block s2 i))) at 1; [apply agrees_none|]. rewrite firstn_length. lia.
Qed.
Lemma move_R s v i j : R s v -> exists s', move s i j = Ok s' /\ R s' (set_vector (set_vector v i (v j)) j []).
Proof.
  intros HR. pose proof HR as [I H]. unfold move. destruct (free_null s i no_buffer I eq_refl eq_refl) as (s1 & -> & Eb & En & I1 & Hj).
  cbn [bind]. eexists. split; [reflexivity|]. set (s2 := set_buffer (set_buffer s1 i (bufs s1 j)) j no_buffer).
  set (s0 := set_buffer s1 i no_buffer) in *.
  (* s2 is s0 with the block handed from j to i *)
  assert (D : forall k, bufs s2 k = if Nat.eqb k j then no_buffer else if Nat.eqb k i then bufs s j else bufs s k).
  { intro k. unfold s2. rewrite !bufs_set, Eb. reflexivity. }
  assert (D0 : forall k, bufs s0 k = if Nat.eqb k i then no_buffer else bufs s k).
  { intro k. unfold s0. rewrite bufs_set, Eb. reflexivity. }
  assert (Eh : heap s2 = heap s0) by reflexivity. assert (Enx : next s2 = next s0) by reflexivity.
  assert (I2 : Inv s2).
  { split.
    - intros k p. rewrite D, Eh, Enx. destruct (Nat.eqb_spec k j); [discriminate|]. destruct (Nat.eqb_spec k i) as [->|Hk].
      + intro E. assert (E' : bufs s0 j = bufs s j) by (rewrite D0; destruct (Nat.eqb_spec j i); [congruence|reflexivity]).
        rewrite <- E' in E |- *. apply (i_live s0 I1 j p E).
      + intro E. assert (E' : bufs s0 k = bufs s k) by (rewrite D0; destruct (Nat.eqb_spec k i); [congruence|reflexivity]).
        rewrite <- E' in E |- *. apply (i_live s0 I1 k p E).
    - intro k. rewrite D. destruct (Nat.eqb_spec k j); [reflexivity|]. destruct (Nat.eqb_spec k i); apply (i_null s I).
    - intros a b p. rewrite !D. destruct (Nat.eqb_spec a j); [discriminate|]. destruct (Nat.eqb_spec b j); [discriminate|].
      destruct (Nat.eqb_spec a i); destruct (Nat.eqb_spec b i); intros E1 E2; pose proof (i_own s I _ _ p E1 E2); congruence.
    - intros p. rewrite Eh, Enx. intro Hp. destruct (i_leak s0 I1 p Hp) as (Hl & k & Ek). split; [exact Hl|]. rewrite D0 in Ek.
      destruct (Nat.eqb_spec k i) as [Hk|Hk]; [discriminate Ek|]. destruct (Nat.eq_dec k j) as [Hkj|Hkj].
      + rewrite Hkj in Ek, Hk. exists i. rewrite D. destruct (Nat.eqb_spec i j); [congruence|]. rewrite Nat.eqb_refl. exact Ek.
      + exists k. rewrite D. destruct (Nat.eqb_spec k j); [congruence|]. destruct (Nat.eqb_spec k i); [congruence|exact Ek]. }
  split; [exact I2|]. intro k. unfold set_vector. rewrite D. destruct (Nat.eqb_spec k j) as [->|Hkj].
  - unfold good. cbn. split; [reflexivity|]. split; [lia|constructor].
  - destruct (Nat.eqb_spec k i) as [->|Hk].
    + replace (block s2 i) with (block s j); [apply H|]. rewrite <- (Hj j) by congruence. unfold block. rewrite D, D0, Eh.
      destruct (Nat.eqb_spec i j); [congruence|]. rewrite Nat.eqb_refl. destruct (Nat.eqb_spec j i); [congruence|reflexivity].
    + replace (block s2 k) with (block s k); [apply H|]. rewrite <- (Hj k) by congruence. unfold block. rewrite D, D0, Eh.
      destruct (Nat.eqb_spec k i); [congruence|]. destruct (Nat.eqb_spec k j); [congruence|reflexivity].
Qed.
Lemma step_R avail s v c : R s v -> legal_call avail v c -> exists s', step avail s c = Ok s' /\ R s' (vector_call v c).
Proof.
  intros HR. destruct c; cbn [legal_call step vector_call]; intro L.
  - destruct (destroy_R s v i HR) as (s1 & -> & HR1 & E1 & _). cbn [bind]. destruct (construct_R avail s1 _ i n HR1 E1 L) as (s2 & E2 & HR2).
    exists s2. split; [exact E2|]. apply (R_ext s2 _ _ HR2). intro j. unfold set_vector. destruct (Nat.eqb j i); reflexivity.
  - destruct (destroy_R s v i HR) as (s1 & E & HR1 & _). eauto.
  - apply resize_R; assumption.
  - apply reserve_R; assumption.
  - eexists. split; [reflexivity|]. pose proof HR as [I H]. destruct (Inv_size s i 0 I) as [A1 A2]. apply (R_frame s v _ i); auto.
    + intros j Hj. rewrite bufs_set. destruct (Nat.eqb_spec j i); [congruence|reflexivity].
    + rewrite bufs_set, Nat.eqb_refl. unfold good. cbn. split; [reflexivity|]. split; [lia|constructor].
  - apply append_R; assumption.
  - apply put_R; assumption.
  - apply move_R; assumption.
Qed.
Lemma R_start : R start (fun _ => []).
Proof.
  split.
  - split; cbn; try discriminate; auto. intros p H. destruct H. reflexivity.
  - intro i. unfold good. cbn. split; [reflexivity|]. split; [lia|constructor].
Qed.
Lemma run_from_R avail h : forall s v, R s v -> (forall h1 c h2, h = h1 ++ c :: h2 -> legal_call avail (fold_left vector_call h1 v) c) ->
  exists s', run_from avail s h = Ok s' /\ R s' (fold_left vector_call h v).
Proof.
  induction h as [|c h IH]; intros s v HR L; cbn [run_from fold_left]; [eauto|].
  destruct (step_R avail s v c HR (L [] c h eq_refl)) as (s1 & -> & HR1). cbn [bind]. apply IH; [exact HR1|].
  intros h1 d h2 E. apply (L (c :: h1) d h2). rewrite E. reflexivity.
Qed.
Lemma run_R avail h : legal avail h -> exists s, run avail h = Ok s /\ R s (vectors h).
Proof. intro L. apply run_from_R; [exact R_start|exact L]. Qed.

(** ** Frame *)
Lemma realloc_frame avail s p n s1 q : realloc avail s p n = Ok (s1, q) -> bufs s1 = bufs s /\ (next s1 <= Datatypes.S (next s))%nat.
Proof.
  unfold realloc. destruct (avail <? n); [intro H; injection H as <- <-; split; [reflexivity|lia]|].
  destruct (match p with None => Ok [] | Some q => match heap s q with Some m => Ok m | None => UB end end) as [m| | |]; try discriminate. cbn [bind].
  destruct (free s p) as [s0| | |] eqn:E; try discriminate. cbn [bind]. intro H. injection H as <- <-. apply free_frame in E. destruct E as [E1 E2].
  cbn [bufs next]. split; [exact E1|lia].
Qed.
Lemma resize_frame avail s i n s' : resize avail s i n = Ok s' -> forall j, j <> i -> bufs s' j = bufs s j.
Proof.
  unfold resize. intros H j Hj. destruct (_ <? _).
  - destruct (realloc _ _ _ _) as [[s1 q]| | |] eqn:E; try discriminate. cbn [bind] in H. injection H as <-. apply realloc_frame in E. destruct E as [E _].
    rewrite bufs_set. destruct (Nat.eqb_spec j i); [congruence|]. rewrite E. reflexivity.
  - injection H as <-. rewrite bufs_set. destruct (Nat.eqb_spec j i); [congruence|reflexivity].
Qed.
Lemma reserve_frame avail s i n s' : reserve avail s i n = Ok s' -> forall j, j <> i -> bufs s' j = bufs s j.
Proof.
  unfold reserve. intros H j Hj. destruct (_ <? _).
  - destruct (realloc _ _ _ _) as [[s1 q]| | |] eqn:E; try discriminate. cbn [bind] in H. injection H as <-. apply realloc_frame in E. destruct E as [E _].
    rewrite bufs_set. destruct (Nat.eqb_spec j i); [congruence|]. rewrite E. reflexivity.
  - injection H as <-. reflexivity.
Qed.
Lemma put_frame s i off l s' : put s i off l = Ok s' -> bufs s' = bufs s /\ next s' = next s.
Proof.
  unfold put. destruct l; [intro H; injection H as <-; auto|]. destruct (data _); [|discriminate]. destruct (heap s _); [|discriminate].
  destruct (Nat.ltb _ _); [discriminate|]. intro H. injection H as <-. auto.
Qed.
Lemma append_frame avail s i l s' : append avail s i l = Ok s' -> forall j, j <> i -> bufs s' j = bufs s j.
Proof.
  unfold append. intros H j Hj. destruct (resize _ _ _ _) as [s1| | |] eqn:E; try discriminate. cbn [bind] in H. apply put_frame in H. destruct H as [-> _].
  apply (resize_frame _ _ _ _ _ E j Hj).
Qed.
Lemma destroy_frame s i s' : destroy s i = Ok s' -> bufs s' i = no_buffer /\ forall j, j <> i -> bufs s' j = bufs s j.
Proof.
  unfold destroy. destruct (free _ _) as [s1| | |] eqn:E; try discriminate. cbn [bind]. intro H. injection H as <-. apply free_frame in E. destruct E as [E _].
  split; [rewrite bufs_set, Nat.eqb_refl; reflexivity|]. intros j Hj. rewrite bufs_set. destruct (Nat.eqb_spec j i); [congruence|]. rewrite E. reflexivity.
Qed.
Lemma construct_frame avail s i n s' : construct avail s i n = Ok s' -> forall j, j <> i -> bufs s' j = bufs s j.
Proof.
  unfold construct. intros H j Hj. destruct (reserve _ _ _ _) as [s1| | |] eqn:E; try discriminate. cbn [bind] in H.
  rewrite (resize_frame _ _ _ _ _ H j Hj), (reserve_frame _ _ _ _ _ E j Hj), bufs_set. destruct (Nat.eqb_spec j i); [congruence|reflexivity].
Qed.
Lemma step_frame avail s c s' k : step avail s c = Ok s' -> ~ about c k -> bufs s' k = bufs s k.
Proof.
  destruct c; cbn [step about]; intros H Hk.
  - destruct (destroy s i) as [s1| | |] eqn:E; try discriminate. cbn [bind] in H. rewrite (construct_frame _ _ _ _ _ H k Hk). apply (destroy_frame _ _ _ E); exact Hk.
  - apply (destroy_frame _ _ _ H); exact Hk.
  - apply (resize_frame _ _ _ _ _ H k Hk).
  - apply (reserve_frame _ _ _ _ _ H k Hk).
  - injection H as <-. rewrite bufs_set. destruct (Nat.eqb_spec k i); [congruence|reflexivity].
  - apply (append_frame _ _ _ _ _ H k Hk).
  - apply put_frame in H. destruct H as [-> _]. reflexivity.
  - unfold move in H. destruct (free _ _) as [s1| | |] eqn:E; try discriminate. cbn [bind] in H. injection H as <-. apply free_frame in E. destruct E as [E _].
    rewrite !bufs_set. destruct (Nat.eqb_spec k j); [intuition congruence|]. destruct (Nat.eqb_spec k i); [intuition congruence|]. rewrite E. reflexivity.
Qed.
Lemma run_from_app avail h1 h2 s : run_from avail s (h1 ++ h2) = bind (run_from avail s h1) (fun s1 => run_from avail s1 h2).
Proof. revert s. induction h1 as [|c h1 IH]; intro s; cbn [run_from app bind]; [reflexivity|]. destruct (step avail s c); cbn [bind]; auto. Qed.
Lemma run_untouched avail h k : forall s s', run_from avail s h = Ok s' -> (forall c, In c h -> ~ about c k) -> bufs s' k = bufs s k.
Proof.
  induction h as [|c h IH]; cbn [run_from]; intros s s' H Hn; [injection H as <-; reflexivity|].
  destruct (step avail s c) as [s1| | |] eqn:E; try discriminate. cbn [bind] in H. rewrite (IH s1 s' H) by (intros; apply Hn; right; assumption).
  apply (step_frame _ _ _ _ _ E). apply Hn. left. reflexivity.
Qed.
Lemma run_destroyed avail is : forall s s', run_from avail s (map Destroy is) = Ok s' ->
  forall k, (In k is \/ bufs s k = no_buffer) -> bufs s' k = no_buffer.
Proof.
  induction is as [|i is IH]; cbn [map run_from step]; intros s s' H k Hk; [injection H as <-; destruct Hk as [[]|Hk]; exact Hk|].
  destruct (destroy s i) as [s1| | |] eqn:E; try discriminate. cbn [bind] in H. apply (IH s1 s' H). destruct (destroy_frame _ _ _ E) as [A1 A2].
  destruct (Nat.eq_dec k i) as [->|Hki]; [right; exact A1|]. destruct Hk as [[->|Hk]|Hk]; [congruence|left; exact Hk|right]. rewrite A2 by exact Hki. exact Hk.
Qed.

(** ** Comparison *)
Lemma compare_spec x : forall y, length x = length y -> exists r, compare (map Some x) (map Some y) = Ok r /\ (r = true <-> x = y).
Proof.
  induction x as [|a x IH]; intros [|b y] E; cbn in E; try discriminate; cbn [map compare].
  - exists true. tauto.
  - destruct (N.eqb_spec a b) as [->|Hab].
    + destruct (IH y) as (r & Er & Hr); [congruence|]. exists r. split; [exact Er|]. rewrite Hr. split; congruence.
    + exists false. split; [reflexivity|]. split; [discriminate|congruence].
Qed.
Lemma agrees_some x y : agrees (map Some x) y -> y = map Some x.
Proof.
  revert y. induction x as [|a x IH]; intros y H; inversion H; subst; [reflexivity|]. cbn [map]. match goal with H : _ = None \/ _ |- _ => destruct H as [H|<-]; [discriminate H|] end.
  f_equal. apply IH. assumption.
Qed.

(** ** Growth *)
Lemma resize_next avail s i n s' : resize avail s i n = Ok s' ->
  (next s' = next s /\ data (bufs s' i) = data (bufs s i) /\ capacity (bufs s' i) = capacity (bufs s i) /\ n <= capacity (bufs s i)) \/
  (capacity (bufs s i) < n /\ (next s' <= Datatypes.S (next s))%nat /\ capacity (bufs s' i) = wrap (n + n / 2)).
Proof.
  unfold resize. intros H. destruct (N.ltb_spec (capacity (bufs s i)) n) as [Hc|Hc].
  - right. destruct (realloc _ _ _ _) as [[s1 q]| | |] eqn:E; try discriminate. cbn [bind] in H. injection H as <-. apply realloc_frame in E. destruct E as [_ E].
    rewrite bufs_set, Nat.eqb_refl. auto.
  - left. injection H as <-. rewrite bufs_set, Nat.eqb_refl. auto.
Qed.
Definition growth (s : state) : Prop := 2 * 3 ^ N.of_nat (next s) <= 2 ^ N.of_nat (next s) * (capacity (bufs s 0%nat) + 2).
Lemma growth_step a k n : a < n -> 2 * 3 ^ k <= 2 ^ k * (a + 2) -> 2 * 3 ^ (k + 1) <= 2 ^ (k + 1) * (n + n / 2 + 2).
Proof.
  intros Hn H. rewrite !N.pow_add_r, !N.pow_1_r. assert (Hd : n <= 2 * (n / 2) + 1).
  { pose proof (N.div_mod n 2). pose proof (N.mod_lt n 2). lia. }
  assert (Hx : 3 * (a + 2) <= 2 * (n + n / 2 + 2)) by lia.
  apply N.le_trans with (2 ^ k * (3 * (a + 2))); [lia|]. rewrite <- N.mul_assoc. apply N.mul_le_mono_l. exact Hx.
Qed.
Lemma growth_weak a k j : (j <= k)%nat -> 2 * 3 ^ N.of_nat k <= 2 ^ N.of_nat k * (a + 2) -> 2 * 3 ^ N.of_nat j <= 2 ^ N.of_nat j * (a + 2).
Proof.
  intro H. induction H as [|k Hk IH]; [auto|]. intro E. apply IH. rewrite Nat2N.inj_succ, !N.pow_succ_r' in E.
  apply N.mul_le_mono_pos_l with 2; [lia|]. rewrite !N.mul_assoc in *. pose proof (N.pow_nonzero 3 (N.of_nat k)). nia.
Qed.
Lemma growth_resize avail s n s' : fits avail n -> growth s -> resize avail s 0%nat n = Ok s' -> growth s'.
Proof.
  intros [F _] G H. apply resize_next in H. unfold growth in *. destruct H as [(E1 & _ & E2 & _)|(Hc & Hx & E2)].
  - rewrite E1, E2. exact G.
  - rewrite E2. unfold wrap. rewrite N.mod_small by exact F. apply (growth_weak _ (Datatypes.S (next s))); [exact Hx|].
    rewrite Nat2N.inj_succ, <- N.add_1_r. apply (growth_step _ _ _ Hc G).
Qed.
