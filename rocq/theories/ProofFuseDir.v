(** Reading a directory in parts. *)
From Verif Require Import Base ListX Str ModelFuse SpecFuse.
Local Open Scope N_scope.

Lemma le_len n x : length (le_bytes n x) = n.
Proof. revert x. induction n; cbn; auto. Qed.
Lemma le_value_bytes n : forall x, x < 256 ^ N.of_nat n -> le_value (le_bytes n x) = x.
Proof.
  induction n as [|n IH]; intros x H; cbn [le_bytes le_value]; [cbn in H; lia|].
  rewrite IH.
  - pose proof (N.div_mod x 256). lia.
  - rewrite Nat2N.inj_succ, N.pow_succ_r' in H. apply N.div_lt_upper_bound; lia.
Qed.
Lemma pad_ge n : (n <= (n + 7) / 8 * 8)%nat.
Proof. pose proof (Nat.div_mod (n + 7) 8). pose proof (Nat.mod_upper_bound (n + 7) 8). lia. Qed.
Lemma dirent_len name i mode off : length (dirent name i mode off) = dirent_size name.
Proof. unfold dirent, dirent_size. rewrite !app_length, !le_len, repeat_length. pose proof (pad_ge (length name)). lia. Qed.
Lemma reclen_eq n : ((24 + n + 7) / 8 * 8 = 24 + (n + 7) / 8 * 8)%nat.
Proof. replace (24 + n + 7)%nat with (n + 7 + 3 * 8)%nat by lia. rewrite Nat.div_add by lia. lia. Qed.

Definition sizes (l : list (bytes * ino * N)) : nat := list_sum (map (fun e => dirent_size (fst (fst e))) l).
(** The buffer from a base offset. *)
Fixpoint encode (base : nat) (l : list (bytes * ino * N)) : bytes :=
  match l with
  | [] => []
  | (name, i, mode) :: l' => dirent name i mode (base + dirent_size name) ++ encode (base + dirent_size name) l'
  end.
Lemma encode_len base l : length (encode base l) = sizes l.
Proof. revert base. induction l as [|[[n i] m] l IH]; intros base; cbn [encode]; auto. rewrite app_length, dirent_len, IH. reflexivity. Qed.
Lemma fold_encode l : forall buf, fold_left add_entry l buf = buf ++ encode (length buf) l.
Proof.
  induction l as [|[[n i] m] l IH]; intros buf; cbn [fold_left encode]; [now rewrite app_nil_r|].
  rewrite IH. unfold add_entry. rewrite app_length, dirent_len, <- app_assoc. reflexivity.
Qed.
Lemma dir_buffer_encode l : dir_buffer l = encode 0 l.
Proof. unfold dir_buffer. rewrite fold_encode. reflexivity. Qed.
Lemma encode_app base a b : encode base (a ++ b) = encode base a ++ encode (base + sizes a) b.
Proof.
  revert base. induction a as [|[[n i] m] a IH]; intros base; cbn [encode app].
  - unfold sizes. cbn. now rewrite Nat.add_0_r.
  - rewrite IH, app_assoc. f_equal. f_equal. change (sizes ((n, i, m) :: a)) with (dirent_size n + sizes a)%nat. apply eq_sym, Nat.add_assoc.
Qed.

Definition kernel_entry (e : bytes * ino * N) : kentry := mkke (fst (fst e)) (snd (fst e)) (N.land (N.shiftr (snd e) 12) 15).
Definition entry_fits (size : nat) (e : bytes * ino * N) : Prop := (dirent_size (fst (fst e)) <= size)%nat /\ snd (fst e) < 2 ^ 64.

Lemma firstn_prefix {A} n (a b : list A) : n = length a -> firstn n (a ++ b) = a.
Proof. intros ->. rewrite firstn_app, Nat.sub_diag, firstn_all, firstn_O, app_nil_r. reflexivity. Qed.
Lemma skipn_prefix {A} n (a b : list A) : n = length a -> skipn n (a ++ b) = b.
Proof. intros ->. rewrite skipn_app, Nat.sub_diag, skipn_all. reflexivity. Qed.

Lemma firstn_in {A} n m (a b : list A) : (n + m <= length a)%nat -> firstn m (skipn n (a ++ b)) = firstn m (skipn n a).
Proof. intros H. rewrite skipn_app, firstn_app, skipn_length. replace (m - (length a - n))%nat with 0%nat by lia. cbn. apply app_nil_r. Qed.

(** The fields of an encoded entry. *)
Lemma dirent_fields name i mode off : i < 2 ^ 64 -> N.of_nat off < 2 ^ 64 -> N.of_nat (length name) < 2 ^ 32 ->
  let d := dirent name i mode off in
  le_value (firstn 8 d) = i /\ le_value (firstn 8 (skipn 8 d)) = N.of_nat off /\ N.to_nat (le_value (firstn 4 (skipn 16 d))) = length name /\
  le_value (firstn 4 (skipn 20 d)) = N.land (N.shiftr mode 12) 15 /\ firstn (length name) (skipn 24 d) = name.
Proof.
  intros Hi Ho Hn d. unfold d, dirent.
  set (A := le_bytes 8 i). set (B := le_bytes 8 (N.of_nat off)). set (C := le_bytes 4 (N.of_nat (length name))).
  set (D := le_bytes 4 (N.land (N.shiftr mode 12) 15)). set (P := repeat 0 _).
  assert (LA : length A = 8%nat) by apply le_len. assert (LB : length B = 8%nat) by apply le_len.
  assert (LC : length C = 4%nat) by apply le_len. assert (LD : length D = 4%nat) by apply le_len.
  split; [rewrite firstn_prefix by auto; apply le_value_bytes; exact Hi|].
  split; [rewrite (skipn_prefix 8 A) by auto; rewrite firstn_prefix by auto; apply le_value_bytes; exact Ho|].
  split. { replace (A ++ B ++ C ++ D ++ name ++ P) with ((A ++ B) ++ C ++ D ++ name ++ P) by (now rewrite <- app_assoc).
    rewrite (skipn_prefix 16) by (rewrite app_length; lia). rewrite firstn_prefix by auto. unfold C. rewrite le_value_bytes by exact Hn. lia. }
  split. { replace (A ++ B ++ C ++ D ++ name ++ P) with ((A ++ B ++ C) ++ D ++ name ++ P) by (now rewrite <- !app_assoc).
    rewrite (skipn_prefix 20) by (rewrite !app_length; lia). rewrite firstn_prefix by auto. unfold D. apply le_value_bytes.
    change 15 with (N.ones 4). rewrite N.land_ones. pose proof (N.mod_upper_bound (N.shiftr mode 12) (2 ^ 4) ltac:(discriminate)) as X.
    eapply N.lt_trans; [exact X|reflexivity]. }
  replace (A ++ B ++ C ++ D ++ name ++ P) with ((A ++ B ++ C ++ D) ++ name ++ P) by (now rewrite <- !app_assoc).
  rewrite (skipn_prefix 24) by (rewrite !app_length; lia). apply firstn_prefix. reflexivity.
Qed.

(** The kernel takes the complete entries of a page. *)
Lemma parse_page l : forall fuel base n,
  (forall e, In e l -> snd (fst e) < 2 ^ 64) -> N.of_nat (base + sizes l) < 2 ^ 32 -> (length (firstn n (encode base l)) <= fuel)%nat ->
  exists a b, l = a ++ b /\ kernel_parse fuel (firstn n (encode base l)) (N.of_nat base) = (map kernel_entry a, N.of_nat (base + sizes a)) /\
    (sizes a <= n)%nat /\ (b = [] \/ exists e, nth_error b 0 = Some e /\ (n < sizes a + dirent_size (fst (fst e)))%nat).
Proof.
  induction l as [|[[name i] mode] l IH]; intros fuel base n Hi Hb Hf.
  - exists [], []. split; auto. cbn [encode]. rewrite firstn_nil. cbn [map]. unfold sizes. cbn. rewrite Nat.add_0_r.
    split; [destruct fuel; reflexivity|]. split; [lia|now left].
  - cbn [encode] in *. set (d := dirent name i mode (base + dirent_size name)) in *.
    assert (Ld : length d = dirent_size name) by apply dirent_len.
    assert (Sz : sizes ((name, i, mode) :: l) = (dirent_size name + sizes l)%nat) by reflexivity. rewrite Sz in Hb.
    assert (Dn : (24 + length name <= dirent_size name)%nat) by (unfold dirent_size; pose proof (pad_ge (length name)); lia).
    destruct (dirent_fields name i mode (base + dirent_size name)) as (F1 & F2 & F3 & F4 & F5).
    { apply (Hi (name, i, mode)). now left. }
    { eapply N.lt_trans with (m := 2 ^ 32); [lia|reflexivity]. }
    { lia. }
    fold d in F1, F2, F3, F4, F5.
    destruct (le_lt_dec (dirent_size name) n) as [Hn|Hn].
    + (* the entry is complete *)
      assert (Ef : firstn n (d ++ encode (base + dirent_size name) l) = d ++ firstn (n - dirent_size name) (encode (base + dirent_size name) l)).
      { rewrite firstn_app, Ld. f_equal. apply firstn_all2. lia. }
      rewrite Ef in *. set (rest := firstn (n - dirent_size name) (encode (base + dirent_size name) l)) in *.
      rewrite app_length, Ld in Hf. destruct fuel as [|fuel]; [lia|].
      destruct (IH fuel (base + dirent_size name)%nat (n - dirent_size name)%nat) as (a & b & El & Pa & Sa & Nb).
      { intros e He. apply Hi. now right. }
      { rewrite <- Nat.add_assoc. exact Hb. }
      { fold rest. lia. }
      exists ((name, i, mode) :: a), b. split; [cbn; congruence|]. split; [|split].
      * cbn [kernel_parse]. rewrite app_length, Ld.
        destruct (Nat.ltb_spec (dirent_size name + length rest) 24); [lia|].
        rewrite (firstn_in 16 4 d rest) by lia. rewrite F3, reclen_eq. fold (dirent_size name).
        destruct (Nat.ltb_spec (dirent_size name + length rest) (dirent_size name)); [lia|].
        rewrite (skipn_prefix (dirent_size name) d rest) by auto.
        rewrite (firstn_in 8 8 d rest) by lia. rewrite F2. fold rest in Pa. rewrite Pa.
        rewrite (firstn_in 24 (length name) d rest) by lia. rewrite F5.
        rewrite (firstn_in 20 4 d rest) by lia. rewrite F4.
        change (firstn 8 (d ++ rest)) with (firstn 8 (skipn 0 (d ++ rest))). rewrite (firstn_in 0 8 d rest) by lia. change (skipn 0 d) with d.
        rewrite F1. cbn [map]. change (sizes ((name, i, mode) :: a)) with (dirent_size name + sizes a)%nat. rewrite Nat.add_assoc. reflexivity.
      * change (sizes ((name, i, mode) :: a)) with (dirent_size name + sizes a)%nat. lia.
      * destruct Nb as [->|(e & He & Hl)]; [now left|]. right. exists e. split; auto. change (sizes ((name, i, mode) :: a)) with (dirent_size name + sizes a)%nat. lia.
    + exists [], ((name, i, mode) :: l). split; auto. split; [|split].
      * cbn [map]. unfold sizes. cbn [list_sum map fold_right]. rewrite Nat.add_0_r.
        assert (Ef : firstn n (d ++ encode (base + dirent_size name) l) = firstn n d).
        { rewrite firstn_app. replace (n - length d)%nat with 0%nat by lia. cbn. apply app_nil_r. }
        rewrite Ef. destruct fuel as [|fuel]; [reflexivity|]. cbn [kernel_parse]. rewrite firstn_length, Ld.
        destruct (Nat.ltb_spec (Nat.min n (dirent_size name)) 24); [reflexivity|].
        assert (E4 : firstn 4 (skipn 16 (firstn n d)) = firstn 4 (skipn 16 d)).
        { rewrite skipn_firstn_comm, firstn_firstn. f_equal. lia. }
        rewrite E4, F3, reclen_eq. fold (dirent_size name). destruct (Nat.ltb_spec (Nat.min n (dirent_size name)) (dirent_size name)); [reflexivity|lia].
      * unfold sizes. cbn. lia.
      * right. exists (name, i, mode). split; auto.
Qed.

Lemma page_encode l a b size : l = a ++ b -> read_page l (sizes a) size = firstn size (encode (sizes a) b).
Proof.
  intros ->. unfold read_page. rewrite dir_buffer_encode, encode_app, app_length, !encode_len. cbn [Nat.add].
  rewrite skipn_prefix by (now rewrite encode_len).
  destruct (Nat.leb_spec (sizes a + sizes b) (sizes a)) as [H|H].
  - assert (sizes b = 0%nat) by lia. assert (E : encode (sizes a) b = []) by (apply length_zero_iff_nil; rewrite encode_len; auto). now rewrite E, firstn_nil.
  - replace (sizes a + sizes b - sizes a)%nat with (length (encode (sizes a) b)) by (rewrite encode_len; lia).
    destruct (Nat.min_spec (length (encode (sizes a) b)) size) as [[X ->]|[X ->]]; auto. rewrite firstn_all. symmetry. apply firstn_all2. lia.
Qed.

Lemma readdir_all l size : (forall e, In e l -> entry_fits size e) -> N.of_nat (sizes l) < 2 ^ 32 ->
  forall b a fuel, l = a ++ b -> (length b < fuel)%nat ->
  kernel_readdir fuel (fun off => read_page l off size) (N.of_nat (sizes a)) = Some (map kernel_entry b).
Proof.
  intros Hl Hs b. induction b as [b IH] using (well_founded_induction (well_founded_ltof _ (@length _))). unfold ltof in IH.
  intros a fuel El Hf. destruct fuel as [|fuel]; [lia|]. cbn [kernel_readdir]. rewrite Nat2N.id, (page_encode l a b size El).
  assert (Ss : sizes l = (sizes a + sizes b)%nat) by (subst l; unfold sizes; rewrite map_app, list_sum_app; reflexivity).
  assert (Hb : forall e, In e b -> entry_fits size e) by (intros e He; apply Hl; subst l; apply in_or_app; now right).
  destruct (parse_page b (length (firstn size (encode (sizes a) b))) (sizes a) size) as (c & d & Eb & Pa & Sc & Nd).
  { intros e He. apply Hb. exact He. }
  { rewrite <- Ss. exact Hs. }
  { lia. }
  rewrite Pa. destruct c as [|e c].
  - cbn [map app] in *. destruct Nd as [->|(e & He & Hlt)]; [subst b; reflexivity|]. exfalso.
    assert (Ie : In e b) by (rewrite Eb; destruct d; [discriminate|left; cbn in He; congruence]). destruct (Hb e Ie) as [X _]. 
    exact (Nat.lt_irrefl _ (Nat.lt_le_trans _ _ _ Hlt X)).
  - cbn [map]. assert (Ed : N.of_nat (sizes a + sizes (e :: c)) = N.of_nat (sizes (a ++ e :: c))) by (unfold sizes; rewrite map_app, list_sum_app; reflexivity).
    rewrite Ed, (IH d). 
    + subst b. rewrite map_app. reflexivity.
    + pose proof (f_equal (@length _) Eb) as X. rewrite app_length in X. cbn [length] in X.
      refine (Nat.lt_le_trans _ (S (length d)) _ (Nat.lt_succ_diag_r _) _). refine (eq_ind_r (fun q => (S (length d) <= q)%nat) _ X). lia.
    + subst b. rewrite <- app_assoc. exact El.
    + pose proof (f_equal (@length _) Eb) as X. rewrite app_length in X. cbn [length] in X.
      pose proof (eq_ind _ (fun q => (q < S fuel)%nat) Hf _ X) as Y. cbv beta in Y. cbn [Nat.add] in Y.
      exact (Nat.le_lt_trans _ (length c + length d) _ (Nat.le_add_l _ _) (proj2 (Nat.succ_lt_mono _ _) Y)).
Qed.
