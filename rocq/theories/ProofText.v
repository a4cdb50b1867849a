From Verif Require Import Base ListX ModelText SpecText.
Local Open Scope N_scope.

(** ** Content ids *)
Lemma hex_nibble n : n < 16 -> hex_to_int (int_to_hex n) = Some n.
Proof.
  intros H. unfold hex_to_int, int_to_hex.
  destruct (N.leb_spec n 9).
  - destruct (N.leb_spec 48 (48 + n)); [|lia]. destruct (N.leb_spec (48 + n) 57); [|lia].
    cbn [andb]. f_equal. lia.
  - destruct (N.leb_spec n 15); [|lia].
    destruct (N.leb_spec (97 + n - 10) 57); [lia|]. rewrite andb_false_r.
    destruct (N.leb_spec 97 (97 + n - 10)); [|lia]. destruct (N.leb_spec (97 + n - 10) 102); [|lia].
    cbn [andb]. f_equal. lia.
Qed.

Lemma nibbles b : b < 256 -> N.shiftr b 4 < 16 /\ N.land b 15 < 16 /\
  (N.shiftl (N.shiftr b 4) 4 + N.land b 15) mod 256 = b.
Proof.
  intros H. change 15 with (N.ones 4). rewrite N.land_ones, N.shiftr_div_pow2, N.shiftl_mul_pow2.
  change (2 ^ 4) with 16. 
  pose proof (N.mod_lt b 16). pose proof (N.div_mod b 16).
  assert (b / 16 < 16) by (apply N.div_lt_upper_bound; lia).
  split; [lia|]. split; [lia|]. rewrite N.mod_small; lia.
Qed.

Lemma to_hex_length id : length (to_hex_string id) = (2 * length id)%nat.
Proof. induction id as [|b id IH]; [reflexivity|]. cbn [to_hex_string length]. lia. Qed.

Lemma from_to_loop id : is_bytes id -> from_hex_loop (to_hex_string id) = Ok id.
Proof.
  induction 1 as [|b id Hb H IH]; [reflexivity|].
  cbn [to_hex_string from_hex_loop]. destruct (nibbles b Hb) as (H1 & H2 & H3).
  rewrite !hex_nibble, IH by assumption. cbn [bind]. rewrite H3. reflexivity.
Qed.

Theorem hex_roundtrip id : is_bytes id -> length id = hash_size ->
  from_hex_string (to_hex_string id) = Ok id.
Proof.
  intros Hb Hl. unfold from_hex_string. rewrite to_hex_length, Hl. now apply from_to_loop.
Qed.

Theorem hex_injective id1 id2 : is_bytes id1 -> is_bytes id2 ->
  to_hex_string id1 = to_hex_string id2 -> id1 = id2.
Proof.
  intros H1 H2 E. apply from_to_loop in H1, H2. rewrite E in H1. congruence.
Qed.

Definition is_hex (c : byte) : Prop := 48 <= c <= 57 \/ 97 <= c <= 102.

Lemma hex_to_int_spec c : match hex_to_int c with
  | Some n => is_hex c /\ n < 16 /\ int_to_hex n = c
  | None => ~ is_hex c end.
Proof.
  unfold hex_to_int, is_hex.
  destruct (N.leb_spec 48 c); destruct (N.leb_spec c 57); cbn [andb].
  - repeat split; try lia. unfold int_to_hex. destruct (N.leb_spec (c - 48) 9); lia.
  - destruct (N.leb_spec 97 c); destruct (N.leb_spec c 102); cbn [andb]; try lia.
    repeat split; try lia. unfold int_to_hex.
    destruct (N.leb_spec (c - 97 + 10) 9); [lia|]. destruct (N.leb_spec (c - 97 + 10) 15); lia.
  - destruct (N.leb_spec 97 c); cbn [andb]; lia.
  - lia.
Qed.

Lemma pack_nibbles h l : h < 16 -> l < 16 ->
  let b := (N.shiftl h 4 + l) mod 256 in
  b < 256 /\ N.shiftr b 4 = h /\ N.land b 15 = l.
Proof.
  intros Hh Hl. cbv zeta. change 15 with (N.ones 4).
  rewrite N.land_ones, N.shiftr_div_pow2, N.shiftl_mul_pow2. change (2 ^ 4) with 16.
  rewrite N.mod_small by lia. split; [lia|]. split.
  - rewrite N.div_add_l by lia. rewrite N.div_small; lia.
  - rewrite N.add_comm, N.mod_add, N.mod_small; lia.
Qed.

Lemma from_hex_loop_inv : forall str id, from_hex_loop str = Ok id ->
  is_bytes id /\ to_hex_string id = str.
Proof.
  fix IH 1. intros [|h [|l r]] id H; cbn [from_hex_loop] in H.
  - inversion H; subst. split; [constructor|reflexivity].
  - discriminate.
  - pose proof (hex_to_int_spec h) as Sh. pose proof (hex_to_int_spec l) as Sl.
    destruct (hex_to_int h) as [hi|]; [|discriminate].
    destruct (hex_to_int l) as [lo|]; [|discriminate].
    destruct (from_hex_loop r) as [t| | |] eqn:E; try discriminate.
    cbn [bind] in H. inversion H; subst. apply IH in E. destruct E as (Hb & Ht).
    destruct Sh as (_ & Hhi & Eh). destruct Sl as (_ & Hlo & El).
    destruct (pack_nibbles hi lo Hhi Hlo) as (P1 & P2 & P3).
    split; [constructor; assumption|].
    cbn [to_hex_string]. rewrite P2, P3, Eh, El, Ht. reflexivity.
Qed.

Lemma from_hex_loop_ok : forall str, Nat.even (length str) = true -> Forall is_hex str ->
  exists id, from_hex_loop str = Ok id.
Proof.
  fix IH 1. intros [|h [|l r]] He H.
  - exists []. reflexivity.
  - discriminate.
  - inversion H as [|? ? Hh H']; subst. inversion H' as [|? ? Hl H'']; subst.
    cbn [from_hex_loop].
    pose proof (hex_to_int_spec h) as Sh. pose proof (hex_to_int_spec l) as Sl.
    destruct (hex_to_int h); [|contradiction]. destruct (hex_to_int l); [|contradiction].
    destruct (IH r He H'') as (t & ->). cbn [bind]. eauto.
Qed.

Lemma from_hex_loop_bad : forall str, Nat.even (length str) = true -> ~ Forall is_hex str ->
  from_hex_loop str = Fail.
Proof.
  fix IH 1. intros [|h [|l r]] He H.
  - exfalso. apply H. constructor.
  - discriminate.
  - cbn [from_hex_loop].
    pose proof (hex_to_int_spec h) as Sh. pose proof (hex_to_int_spec l) as Sl.
    destruct (hex_to_int h) as [hi|]; [|reflexivity]. destruct (hex_to_int l) as [lo|]; [|reflexivity].
    rewrite (IH r He); [reflexivity|]. intros F. apply H.
    constructor; [apply Sh|]. constructor; [apply Sl|exact F].
Qed.

Theorem hex_parse_spec str :
  (exists id, from_hex_string str = Ok id /\ is_bytes id /\ length id = hash_size /\ to_hex_string id = str)
  <-> (length str = 40%nat /\ Forall is_hex str).
Proof.
  unfold from_hex_string. split.
  - intros (id & E & Hb & Hl & Ht). destruct (Nat.eqb_spec (length str) (hash_size * 2)) as [El|]; [|discriminate].
    split; [exact El|]. destruct (from_hex_loop_inv _ _ E) as (_ & _).
    clear - E. revert str id E. fix IH 1. intros [|h [|l r]] id E; cbn [from_hex_loop] in E.
    + constructor.
    + discriminate.
    + pose proof (hex_to_int_spec h) as Sh. pose proof (hex_to_int_spec l) as Sl.
      destruct (hex_to_int h) as [hi|]; [|discriminate].
      destruct (hex_to_int l) as [lo|]; [|discriminate].
      destruct (from_hex_loop r) as [t| | |] eqn:E'; try discriminate.
      constructor; [apply Sh|]. constructor; [apply Sl|]. eapply IH. exact E'.
  - intros (El & F). change 40%nat with (hash_size * 2)%nat in El. rewrite El, Nat.eqb_refl.
    destruct (from_hex_loop_ok str) as (id & E); [rewrite El; reflexivity|assumption|].
    destruct (from_hex_loop_inv _ _ E) as (Hb & Ht). exists id. repeat split; try assumption.
    assert (length (to_hex_string id) = length str) by (rewrite Ht; reflexivity).
    rewrite to_hex_length in *. unfold hash_size in *. lia.
Qed.

Theorem hex_parse_rejects str :
  ~ (length str = 40%nat /\ Forall is_hex str) -> from_hex_string str = Fail.
Proof.
  intros H. unfold from_hex_string. destruct (Nat.eqb_spec (length str) (hash_size * 2)) as [El|]; [|reflexivity].
  apply from_hex_loop_bad; [rewrite El; reflexivity|]. intros F. apply H. split; assumption.
Qed.

(** ** ANSI *)
Lemma ansi_loop_skip st c r : ansi_loop st true (c :: r) = ansi_loop st false r.
Proof. reflexivity. Qed.

Lemma ansi_loop_nil st sk : ansi_loop st sk [] = [].
Proof. destruct sk; reflexivity. Qed.

Ltac byte_cases :=
  repeat match goal with
  | |- context [?a =? ?b] => destruct (N.eqb_spec a b); subst; cbn [andb orb]
  end.

(** In a sequence of kind k, nothing is output until the first terminator. *)
Definition in_seq (k : ansi_state) : Prop := k <> NotInSequence.

Lemma closes_in_seq k t : closes k t -> in_seq k.
Proof. destruct 1; discriminate. Qed.

Lemma loop_body k body tail : in_seq k -> no_close k body tail ->
  (forall c, tail = c :: nil \/ True -> True) ->
  ansi_loop k false (body ++ tail) = ansi_loop k false tail.
Proof.
  intros Hk Hn _. induction body as [|ch body IH]; [reflexivity|].
  assert (IH' : ansi_loop k false (body ++ tail) = ansi_loop k false tail).
  { apply IH. intros b1 b2 t x E. apply (Hn (ch :: b1) b2 t x). now rewrite E. }
  assert (H0 : forall t x, closes k t -> ch :: body ++ tail <> t ++ x).
  { intros t x Hc. apply (Hn [] (ch :: body) t x); [reflexivity|discriminate|assumption]. }
  rewrite <- IH'. cbn [app].
  remember (body ++ tail) as r eqn:Er. clear - Hk H0.
  cbn [ansi_loop].
  destruct k; [congruence| | |].
  - destruct (N.eqb_spec ch kST) as [->|].
    { exfalso. apply (H0 [0x9C] r); [constructor|reflexivity]. }
    destruct (N.eqb_spec ch kESC) as [->|]; cbn [orb andb]; [|reflexivity].
    destruct r as [|c r]; [reflexivity|].
    destruct (N.eqb_spec c ch_backslash) as [->|]; [|reflexivity].
    exfalso. apply (H0 [0x1B; 92] r); [constructor|reflexivity].
  - destruct (N.leb_spec 0x40 ch); destruct (N.leb_spec ch 0x7E); cbn [andb]; try reflexivity.
    exfalso. apply (H0 [ch] r); [constructor; split; assumption|reflexivity].
  - destruct (N.eqb_spec ch kBEL) as [->|].
    { exfalso. apply (H0 [0x07] r); [constructor|reflexivity]. }
    destruct (N.eqb_spec ch kST) as [->|].
    { exfalso. apply (H0 [0x9C] r); [constructor|reflexivity]. }
    destruct (N.eqb_spec ch kESC) as [->|]; cbn [orb andb]; [|reflexivity].
    destruct r as [|c r]; [reflexivity|].
    destruct (N.eqb_spec c ch_backslash) as [->|]; [|reflexivity].
    exfalso. apply (H0 [0x1B; 92] r); [constructor|reflexivity].
Qed.

Lemma loop_close k t r : closes k t -> ansi_loop k false (t ++ r) = ansi_loop NotInSequence false r.
Proof.
  destruct 1 as [| |f [F1 F2]| | |]; try reflexivity.
  cbn [app ansi_loop]. apply N.leb_le in F1, F2. rewrite F1, F2. reflexivity.
Qed.

Lemma loop_open k i r : opens k i -> ansi_loop NotInSequence false (i ++ r) = ansi_loop k false r.
Proof. destruct 1; reflexivity. Qed.

Lemma opens_in_seq k i : opens k i -> in_seq k.
Proof. destruct 1; discriminate. Qed.

Theorem ansi_correct input output : ansi input output -> remove_escape_sequences input = output.
Proof.
  unfold remove_escape_sequences. induction 1 as [|c r o Hn H IH|k i body t r o Ho Hc Hn H IH|k i body Ho Hn].
  - reflexivity.
  - cbn [ansi_loop]. rewrite IH.
    assert (N1 : forall k i x, opens k i -> c :: r <> i ++ x) by exact Hn.
    destruct (N.eqb_spec c kDCSI) as [->|]; [exfalso; apply (N1 DCS [0x90] r); [constructor|reflexivity]|].
    destruct (N.eqb_spec c kCSI) as [->|]; [exfalso; apply (N1 CS [0x9B] r); [constructor|reflexivity]|].
    destruct (N.eqb_spec c kOSCI) as [->|]; [exfalso; apply (N1 OSC [0x9D] r); [constructor|reflexivity]|].
    rewrite !orb_false_r.
    destruct (N.eqb_spec c kESC) as [->|]; [|reflexivity]. cbn [andb].
    destruct r as [|d r]; [reflexivity|].
    destruct (N.eqb_spec d ch_P) as [->|]; [exfalso; apply (N1 DCS [0x1B; 80] r); [constructor|reflexivity]|].
    destruct (N.eqb_spec d ch_lbracket) as [->|]; [exfalso; apply (N1 CS [0x1B; 91] r); [constructor|reflexivity]|].
    destruct (N.eqb_spec d ch_rbracket) as [->|]; [exfalso; apply (N1 OSC [0x1B; 93] r); [constructor|reflexivity]|].
    reflexivity.
  - rewrite (loop_open k) by assumption. rewrite (loop_body k); auto; [|eapply opens_in_seq; eassumption].
    rewrite (loop_close k) by assumption. exact IH.
  - rewrite (loop_open k) by assumption. rewrite <- (app_nil_r body).
    rewrite (loop_body k); auto. eapply opens_in_seq; eassumption.
Qed.

(** Every input has a parse. *)
Lemma opens_dec s : (exists k i x, opens k i /\ s = i ++ x) \/ (forall k i x, opens k i -> s <> i ++ x).
Proof.
  destruct s as [|c r].
  { right. intros k i x Ho. destruct Ho; discriminate. }
  destruct (N.eqb_spec c kDCSI) as [->|n1]; [left; exists DCS, [0x90], r; split; [constructor|reflexivity]|].
  destruct (N.eqb_spec c kCSI) as [->|n2]; [left; exists CS, [0x9B], r; split; [constructor|reflexivity]|].
  destruct (N.eqb_spec c kOSCI) as [->|n3]; [left; exists OSC, [0x9D], r; split; [constructor|reflexivity]|].
  destruct (N.eqb_spec c kESC) as [->|n4].
  2:{ right. unfold kDCSI, kCSI, kOSCI, kESC, ch_P, ch_lbracket, ch_rbracket in *. intros k i x Ho E. destruct Ho; inversion E; congruence. }
  destruct r as [|d r].
  { right. unfold kDCSI, kCSI, kOSCI, kESC, ch_P, ch_lbracket, ch_rbracket in *. intros k i x Ho E. destruct Ho; inversion E; congruence. }
  destruct (N.eqb_spec d ch_P) as [->|m1]; [left; exists DCS, [0x1B; 80], r; split; [constructor|reflexivity]|].
  destruct (N.eqb_spec d ch_lbracket) as [->|m2]; [left; exists CS, [0x1B; 91], r; split; [constructor|reflexivity]|].
  destruct (N.eqb_spec d ch_rbracket) as [->|m3]; [left; exists OSC, [0x1B; 93], r; split; [constructor|reflexivity]|].
  right. unfold kDCSI, kCSI, kOSCI, kESC, ch_P, ch_lbracket, ch_rbracket in *. intros k i x Ho E. destruct Ho; inversion E; congruence.
Qed.

Lemma closes_dec k s : (exists t x, closes k t /\ s = t ++ x) \/ (forall t x, closes k t -> s <> t ++ x).
Proof.
  destruct s as [|c r].
  { right. intros t x Hc. destruct Hc; discriminate. }
  destruct k.
  - right. intros t x Hc. inversion Hc.
  - destruct (N.eq_dec c 0x9C) as [->|]; [left; exists [0x9C], r; split; [constructor|reflexivity]|].
    destruct (N.eq_dec c 0x1B) as [->|].
    2:{ right. intros t x Hc E. inversion Hc; subst; inversion E; congruence. }
    destruct r as [|d r].
    { right. intros t x Hc E. inversion Hc; subst; inversion E; congruence. }
    destruct (N.eq_dec d 92) as [->|]; [left; exists [0x1B; 92], r; split; [constructor|reflexivity]|].
    right. intros t x Hc E. inversion Hc; subst; inversion E; congruence.
  - destruct (N.le_gt_cases 0x40 c); [destruct (N.le_gt_cases c 0x7E)|].
    + left; exists [c], r; split; [constructor; split; assumption|reflexivity].
    + right. intros t x Hc E. inversion Hc as [| |f [F1 F2]| | |]; subst; inversion E; subst. lia.
    + right. intros t x Hc E. inversion Hc as [| |f [F1 F2]| | |]; subst; inversion E; subst. lia.
  - destruct (N.eq_dec c 0x07) as [->|]; [left; exists [0x07], r; split; [constructor|reflexivity]|].
    destruct (N.eq_dec c 0x9C) as [->|]; [left; exists [0x9C], r; split; [constructor|reflexivity]|].
    destruct (N.eq_dec c 0x1B) as [->|].
    2:{ right. intros t x Hc E. inversion Hc; subst; inversion E; congruence. }
    destruct r as [|d r].
    { right. intros t x Hc E. inversion Hc; subst; inversion E; congruence. }
    destruct (N.eq_dec d 92) as [->|]; [left; exists [0x1B; 92], r; split; [constructor|reflexivity]|].
    right. intros t x Hc E. inversion Hc; subst; inversion E; congruence.
Qed.

Lemma find_close k s : (exists body t r, s = body ++ t ++ r /\ closes k t /\ no_close k body (t ++ r)) \/ no_close k s [].
Proof.
  induction s as [|c s IH].
  - right. intros b1 b2 t x E. symmetry in E. apply app_eq_nil in E. destruct E. congruence.
  - destruct (closes_dec k (c :: s)) as [(t & x & Hc & E)|Hn].
    + left. exists [], t, x. split; [exact E|]. split; [exact Hc|].
      intros b1 b2 t' x' E'. symmetry in E'. apply app_eq_nil in E'. destruct E'. congruence.
    + destruct IH as [(body & t & r & E & Hc & Hb)|Hb].
      * left. exists (c :: body), t, r. split; [now rewrite E|]. split; [exact Hc|].
        intros [|b b1] b2 t' x' E' Hne Hc'; simpl in E'.
        -- subst b2. rewrite <- app_comm_cons, <- E. now apply Hn.
        -- inversion E'; subst. now apply (Hb b1 b2).
      * right. intros [|b b1] b2 t' x' E' Hne Hc'; simpl in E'.
        -- subst b2. rewrite app_nil_r. now apply Hn.
        -- inversion E'; subst. now apply (Hb b1 b2).
Qed.

Theorem ansi_total : forall input, exists output, ansi input output.
Proof.
  assert (G : forall n input, (length input <= n)%nat -> exists output, ansi input output).
  { induction n as [|n IH]; intros input Hl.
    - destruct input; [|simpl in Hl; lia]. exists []. constructor.
    - destruct (opens_dec input) as [(k & i & x & Ho & E)|Hn].
      + assert (length i >= 1)%nat by (destruct Ho; simpl; lia).
        destruct (find_close k x) as [(body & t & r & E' & Hc & Hb)|Hb].
        * subst. rewrite !app_length in Hl.
          destruct (IH r) as (o & Ho'); [lia|]. exists o. econstructor; eassumption.
        * subst. exists []. econstructor; eassumption.
      + destruct input as [|c r]; [exists []; constructor|].
        destruct (IH r) as (o & Ho'); [simpl in Hl; lia|]. exists (c :: o). constructor; assumption. }
  intros input. eapply G. reflexivity.
Qed.

Theorem ansi_iff input output : ansi input output <-> remove_escape_sequences input = output.
Proof.
  split; [apply ansi_correct|]. intros <-. destruct (ansi_total input) as (o & Ho).
  rewrite (ansi_correct _ _ Ho). exact Ho.
Qed.

Theorem ansi_plain s : plain s -> remove_escape_sequences s = s.
Proof.
  intros H. apply ansi_correct. induction H as [|c s (H1 & H2) F IH]; constructor; [|exact IH].
  intros k i x Ho E. unfold introducer8 in H2. destruct Ho; inversion E; subst; tauto.
Qed.

(** ** Sizes *)
Lemma parse_digits_spec s : forall acc, all_digits s ->
  parse_digits acc s = Some (fold_left (fun a c => 10 * a + (c - 48)) s acc).
Proof.
  induction s as [|c s IH]; intros acc H; [reflexivity|].
  inversion H as [|? ? Hc Hs]; subst. cbn [parse_digits]. unfold is_digit.
  destruct (N.leb_spec 48 c); [|lia]. destruct (N.leb_spec c 57); [|lia]. cbn [andb].
  rewrite IH by assumption. reflexivity.
Qed.

Lemma parse_u64_spec s : s <> [] -> all_digits s ->
  parse_u64 s = if digits_value s <? 2 ^ 64 then Some (digits_value s) else None.
Proof.
  intros Hne H. unfold parse_u64. rewrite parse_digits_spec by assumption.
  destruct s; [congruence|]. reflexivity.
Qed.

Lemma digits_last s d : all_digits (s ++ [d]) -> unit_shift d = None /\ is_digit d = true.
Proof.
  intros H. apply Forall_app in H. destruct H as (_ & H). inversion H as [|? ? Hd _]; subst.
  unfold unit_shift, is_digit.
  repeat match goal with |- context [?a =? ?b] => destruct (N.eqb_spec a b); [lia|] end.
  cbn [orb]. destruct (N.leb_spec 48 d); [|lia]. destruct (N.leb_spec d 57); [|lia]. split; reflexivity.
Qed.

Theorem jedec_correct ds sfx f : ds <> [] -> all_digits ds -> suffix_factor sfx f ->
  jedec_parse (ds ++ sfx) =
    if digits_value ds <? 2 ^ 64 then Ok ((digits_value ds * f) mod 2 ^ 64) else Fail.
Proof.
  intros Hne Hd Hs.
  assert (Suf : forall c k, unit_shift c = Some k ->
     jedec_parse (ds ++ [c]) = if digits_value ds <? 2 ^ 64 then Ok ((digits_value ds * 2 ^ k) mod 2 ^ 64) else Fail).
  { intros c k Hc. unfold jedec_parse.
    destruct (ds ++ [c]) as [|x y] eqn:E; [destruct ds; discriminate|]. rewrite <- E.
    rewrite last_last, removelast_last, Hc, parse_u64_spec by assumption.
    destruct (digits_value ds <? 2 ^ 64); [|reflexivity]. rewrite N.shiftl_mul_pow2. reflexivity. }
  destruct Hs as [|c [-> | ->]|c [-> | ->]|c [-> | ->]|c [-> | ->]|c [-> | ->]|c [-> | ->]];
    try (erewrite Suf by reflexivity; reflexivity).
  rewrite app_nil_r.
  destruct (exists_last Hne) as (ds' & d & E). subst ds.
  destruct (digits_last _ _ Hd) as (Hu & Hdig).
  unfold jedec_parse. destruct (ds' ++ [d]) as [|x y] eqn:E; [destruct ds'; discriminate|]. rewrite <- E in *.
  rewrite last_last, Hu, Hdig, parse_u64_spec by assumption.
  destruct (digits_value (ds' ++ [d]) <? 2 ^ 64); [|reflexivity]. rewrite N.shiftl_0_r, N.mul_1_r. reflexivity.
Qed.

(** Decimal printing. *)
Lemma digits_value_snoc s d : digits_value (s ++ [d]) = 10 * digits_value s + (d - 48).
Proof. unfold digits_value. rewrite fold_left_app. reflexivity. Qed.

Lemma dec_digits_ok fuel : forall n, n < 2 ^ N.of_nat fuel -> (1 <= fuel)%nat ->
  all_digits (dec_digits fuel n) /\ dec_digits fuel n <> [] /\ digits_value (dec_digits fuel n) = n.
Proof.
  induction fuel as [|fuel IH]; intros n Hn Hf; [lia|].
  cbn [dec_digits]. destruct (N.ltb_spec n 10) as [Hlt|Hge].
  - split; [repeat constructor; lia|]. split; [discriminate|]. unfold digits_value. cbn [fold_left]. lia.
  - assert (Hn' : n / 10 < 2 ^ N.of_nat fuel).
    { apply N.div_lt_upper_bound; [lia|]. rewrite Nat2N.inj_succ, N.pow_succ_r' in Hn. lia. }
    assert (1 <= fuel)%nat.
    { destruct fuel; [|lia]. simpl in Hn. lia. }
    destruct (IH (n / 10) Hn') as (Ha & Hne & Hv); [assumption|].
    assert (n mod 10 < 10) by (apply N.mod_lt; lia).
    split; [|split].
    + apply Forall_app. split; [assumption|]. repeat constructor; lia.
    + destruct (dec_digits fuel (n / 10)); discriminate.
    + rewrite digits_value_snoc, Hv. pose proof (N.div_mod n 10). lia.
Qed.

Lemma print_dec_ok n : all_digits (print_dec n) /\ print_dec n <> [] /\ digits_value (print_dec n) = n.
Proof.
  apply dec_digits_ok; [|lia]. rewrite Nat2N.inj_add, N2Nat.id.
  eapply N.lt_le_trans; [apply N.size_gt|]. apply N.pow_le_mono_r; lia.
Qed.

Theorem jedec_roundtrip n : n < 2 ^ 64 -> jedec_parse (print_dec n) = Ok n.
Proof.
  intros Hn. destruct (print_dec_ok n) as (Ha & Hne & Hv).
  pose proof (jedec_correct _ [] 1 Hne Ha sf_none) as H. rewrite app_nil_r, Hv in H.
  apply N.ltb_lt in Hn as Hb. rewrite Hb, N.mul_1_r, N.mod_small in H by assumption. exact H.
Qed.

(** ** Port ranges *)
Theorem port_range_valid s f l : port_range_parse s = Ok (true, f, l) -> 1 <= f /\ f <= l /\ l <= 65535.
Proof.
  unfold port_range_parse. destruct (split_at ch_minus s) as [|p0 rest]; [discriminate|].
  destruct rest as [|p1 [|p2 rest]]; [| |discriminate].
  - destruct (atoi p0) as [a| | |]; try discriminate. cbn [bind].
    repeat match goal with |- context [if ?b then _ else _] => destruct b eqn:?; [discriminate|] end.
    intros E; inversion E; subst. lia.
  - destruct (atoi p0) as [a| | |]; try discriminate. cbn [bind].
    destruct (atoi p1) as [b| | |]; try discriminate. cbn [bind].
    repeat match goal with |- context [if ?b then _ else _] => destruct b eqn:?; [discriminate|] end.
    intros E; inversion E; subst. lia.
Qed.

Theorem port_range_failed s f l : port_range_parse s = Ok (false, f, l) -> f = 0 /\ l = 0.
Proof.
  unfold port_range_parse. destruct (split_at ch_minus s) as [|p0 rest]; [intros E; inversion E; auto|].
  destruct rest as [|p1 [|p2 rest]].
  - destruct (atoi p0) as [a| | |]; try discriminate. cbn [bind].
    repeat match goal with |- context [if ?b then _ else _] => destruct b eqn:?; [intros E; inversion E; auto|] end.
    discriminate.
  - destruct (atoi p0) as [a| | |]; try discriminate. cbn [bind].
    destruct (atoi p1) as [b| | |]; try discriminate. cbn [bind].
    repeat match goal with |- context [if ?b then _ else _] => destruct b eqn:?; [intros E; inversion E; auto|] end.
    discriminate.
  - intros E; inversion E; auto.
Qed.

Lemma split_no_sep sep s : ~ In sep s -> split_at sep s = [s].
Proof.
  induction s as [|c s IH]; intros H; [reflexivity|]. cbn [split_at].
  destruct (N.eqb_spec c sep) as [->|]; [exfalso; apply H; now left|].
  rewrite IH by (intros Hc; apply H; now right). reflexivity.
Qed.

Lemma split_one_sep sep s1 s2 : ~ In sep s1 -> ~ In sep s2 -> split_at sep (s1 ++ sep :: s2) = [s1; s2].
Proof.
  induction s1 as [|c s IH]; intros H H2.
  - cbn [app split_at]. rewrite N.eqb_refl, split_no_sep by assumption. reflexivity.
  - cbn [app split_at]. destruct (N.eqb_spec c sep) as [->|]; [exfalso; apply H; now left|].
    rewrite IH; [reflexivity|intros Hc; apply H; now right|assumption].
Qed.

Lemma digits_no_minus s : all_digits s -> ~ In ch_minus s.
Proof. intros H Hin. unfold all_digits in H. rewrite Forall_forall in H. apply H in Hin. unfold ch_minus in Hin. lia. Qed.

Lemma leading_digits_spec s : forall acc, all_digits s ->
  leading_digits acc s = fold_left (fun a c => 10 * a + (c - 48)) s acc.
Proof.
  induction s as [|c s IH]; intros acc H; [reflexivity|].
  inversion H as [|? ? Hc Hs]; subst. cbn [leading_digits]. unfold is_digit.
  destruct (N.leb_spec 48 c); [|lia]. destruct (N.leb_spec c 57); [|lia]. cbn [andb].
  rewrite IH by assumption. reflexivity.
Qed.

Lemma atoi_digits s : s <> [] -> all_digits s -> digits_value s < 2 ^ 31 ->
  atoi s = Ok (Z.of_N (digits_value s)).
Proof.
  intros Hne H Hv. unfold atoi.
  assert (E : skip_space s = s).
  { destruct s as [|c s]; [reflexivity|]. inversion H as [|? ? Hc _]; subst. cbn [skip_space].
    unfold is_space. destruct (N.eqb_spec c 32); [lia|]. destruct (N.leb_spec c 13); [lia|].
    rewrite andb_false_r. reflexivity. }
  rewrite E. destruct s as [|c s]; [congruence|]. inversion H as [|? ? Hc _]; subst.
  destruct (N.eqb_spec c ch_minus) as [->|]; [unfold ch_minus in Hc; lia|].
  destruct (N.eqb_spec c ch_plus) as [->|]; [unfold ch_plus in Hc; lia|].
  cbv zeta beta iota. rewrite leading_digits_spec by assumption.
  change (fold_left (fun a c => 10 * a + (c - 48)) (c :: s) 0) with (digits_value (c :: s)).
  set (v := digits_value (c :: s)) in *.
  assert (Hb : ((- 2 ^ 31 <=? Z.of_N v) && (Z.of_N v <? 2 ^ 31))%Z = true).
  { change (2 ^ 31) with 2147483648 in Hv. change (2 ^ 31)%Z with 2147483648%Z. lia. }
  rewrite Hb. reflexivity.
Qed.

Theorem port_range_roundtrip a b : 1 <= a -> a <= b -> b <= 65535 ->
  port_range_parse (print_dec a ++ ch_minus :: print_dec b) = Ok (true, a, b).
Proof.
  intros Ha Hab Hb. unfold port_range_parse.
  destruct (print_dec_ok a) as (A1 & A2 & A3). destruct (print_dec_ok b) as (B1 & B2 & B3).
  rewrite split_one_sep by (apply digits_no_minus; assumption).
  rewrite (atoi_digits (print_dec a)) by (try assumption; rewrite A3; lia).
  rewrite (atoi_digits (print_dec b)) by (try assumption; rewrite B3; lia).
  cbn [bind]. rewrite A3, B3.
  destruct ((Z.of_N a <=? 0) || (65535 <? Z.of_N a))%Z eqn:E1; [lia|].
  destruct ((Z.of_N b <=? 0) || (65535 <? Z.of_N b) || (Z.of_N b <? Z.of_N a))%Z eqn:E2; [lia|].
  rewrite !N2Z.id. reflexivity.
Qed.

Theorem port_single_roundtrip a : 1 <= a -> a <= 65535 ->
  port_range_parse (print_dec a) = Ok (true, a, a).
Proof.
  intros Ha Hb. unfold port_range_parse.
  destruct (print_dec_ok a) as (A1 & A2 & A3).
  rewrite split_no_sep by (apply digits_no_minus; assumption).
  rewrite (atoi_digits (print_dec a)) by (try assumption; rewrite A3; lia).
  cbn [bind]. rewrite A3.
  destruct ((Z.of_N a <=? 0) || (65535 <? Z.of_N a))%Z eqn:E1; [lia|].
  rewrite Z.ltb_irrefl. cbn [orb].
  rewrite !N2Z.id. reflexivity.
Qed.
