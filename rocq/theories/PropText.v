(** Properties C20, C36, C37, C38. *)
From Verif Require Import Base ModelText SpecText ProofText.
Local Open Scope N_scope.

(** C20.  Every 20-byte id survives the trip through its hex string. *)
Theorem C20_hex_roundtrip : forall id, is_bytes id -> length id = 20%nat ->
  from_hex_string (to_hex_string id) = Ok id.
Proof. exact hex_roundtrip. Qed.
Print Assumptions C20_hex_roundtrip.

(** Distinct ids (of any length) have distinct hex strings. *)
Theorem C20_hex_injective : forall id1 id2, is_bytes id1 -> is_bytes id2 ->
  to_hex_string id1 = to_hex_string id2 -> id1 = id2.
Proof. exact hex_injective. Qed.
Print Assumptions C20_hex_injective.

(** A string is accepted iff it is 40 lower-case hex digits, and then printing
    the id gives the string back. *)
Theorem C20_hex_accepts : forall str,
  (exists id, from_hex_string str = Ok id /\ is_bytes id /\ length id = 20%nat /\ to_hex_string id = str)
  <-> (length str = 40%nat /\ Forall (fun c => 48 <= c <= 57 \/ 97 <= c <= 102) str).
Proof. exact hex_parse_spec. Qed.
Print Assumptions C20_hex_accepts.

Theorem C20_hex_rejects : forall str,
  ~ (length str = 40%nat /\ Forall (fun c => 48 <= c <= 57 \/ 97 <= c <= 102) str) ->
  from_hex_string str = Fail.
Proof. exact hex_parse_rejects. Qed.
Print Assumptions C20_hex_rejects.

Example C20_ex : is_bytes (repeat 171 20) /\ length (repeat 171 20) = 20%nat /\
  from_hex_string (to_hex_string (repeat 171 20)) = Ok (repeat 171 20).
Proof.
  split; [|split; vm_compute; reflexivity].
  unfold is_bytes. apply Forall_forall. intros x Hx. apply repeat_spec in Hx. subst. unfold is_byte. lia.
Qed.

(** C36.  The output is the input minus exactly the escape sequences of the
    grammar [ansi]; the grammar gives every input exactly one output. *)
Theorem C36_removes_exactly_sequences : forall input output,
  ansi input output <-> remove_escape_sequences input = output.
Proof. exact ansi_iff. Qed.
Print Assumptions C36_removes_exactly_sequences.

Theorem C36_plain_text_unchanged : forall s, plain s -> remove_escape_sequences s = s.
Proof. exact ansi_plain. Qed.
Print Assumptions C36_plain_text_unchanged.

(** The output may contain an escape sequence that was not in the input, so
    filtering is not idempotent: ESC 0x9B m [ x  ->  ESC [ x. *)
Theorem C36_idempotent_refuted : exists s,
  remove_escape_sequences (remove_escape_sequences s) <> remove_escape_sequences s.
Proof. exists [0x1B; 0x9B; 109; 91; 65; 120]. vm_compute. discriminate. Qed.
Print Assumptions C36_idempotent_refuted.

Example C36_ex : plain [104; 105] /\
  remove_escape_sequences ([104] ++ [0x1B; 91; 51; 109] ++ [105] ++ [0x9D; 48; 0x1B; 92]) = [104; 105].
Proof.
  split; [|vm_compute; reflexivity].
  repeat constructor; unfold introducer8; lia.
Qed.

(** C37.  digits + suffix denotes digits * 1024^k, modulo 2^64. *)
Theorem C37_size_modulo_2_64 : forall ds sfx f,
  ds <> [] -> all_digits ds -> suffix_factor sfx f ->
  jedec_parse (ds ++ sfx) =
    if digits_value ds <? 2 ^ 64 then Ok ((digits_value ds * f) mod 2 ^ 64) else Fail.
Proof. exact jedec_correct. Qed.
Print Assumptions C37_size_modulo_2_64.

(** The exact value, if it fits (partial: the full property also demands that
    values that do not fit are rejected, see the refutation below). *)
Theorem C37_size_exact_partial : forall ds sfx f,
  ds <> [] -> all_digits ds -> suffix_factor sfx f ->
  digits_value ds * f < 2 ^ 64 ->
  jedec_parse (ds ++ sfx) = Ok (digits_value ds * f).
Proof.
  intros ds sfx f Hne Hd Hs Hlt. rewrite (jedec_correct ds sfx f Hne Hd Hs).
  assert (Hf : 1 <= f) by (destruct Hs; vm_compute; discriminate).
  assert (Hv : digits_value ds < 2 ^ 64).
  { eapply N.le_lt_trans; [|exact Hlt]. rewrite <- (N.mul_1_r (digits_value ds)) at 1.
    apply N.mul_le_mono_l. exact Hf. }
  apply N.ltb_lt in Hv. rewrite Hv, N.mod_small by assumption. reflexivity.
Qed.
Print Assumptions C37_size_exact_partial.

(** "16384P" (2^64 bytes) is accepted and parsed as 0. *)
Theorem C37_overflow_rejected_refuted : exists ds sfx f v,
  ds <> [] /\ all_digits ds /\ suffix_factor sfx f /\
  2 ^ 64 <= digits_value ds * f /\ jedec_parse (ds ++ sfx) = Ok v.
Proof.
  exists [49; 54; 51; 56; 52], [80], (1024 ^ 5), 0.
  split; [discriminate|]. split; [repeat constructor; lia|]. split; [apply sf_p; now right|].
  split; [vm_compute; discriminate|vm_compute; reflexivity].
Qed.
Print Assumptions C37_overflow_rejected_refuted.

Theorem C37_print_parse : forall n, n < 2 ^ 64 -> jedec_parse (print_dec n) = Ok n.
Proof. exact jedec_roundtrip. Qed.
Print Assumptions C37_print_parse.

Example C37_ex : [49; 50] <> [] /\ all_digits [49; 50] /\ suffix_factor [75] 1024 /\
  digits_value [49; 50] * 1024 < 2 ^ 64 /\ jedec_parse [49; 50; 75] = Ok 12288.
Proof.
  split; [discriminate|]. split; [repeat constructor; lia|]. split; [apply sf_k; now right|].
  split; vm_compute; reflexivity.
Qed.

(** C38. *)
Theorem C38_success_is_valid_range : forall s f l,
  port_range_parse s = Ok (true, f, l) -> 1 <= f /\ f <= l /\ l <= 65535.
Proof. exact port_range_valid. Qed.
Print Assumptions C38_success_is_valid_range.

Theorem C38_failure_is_zero : forall s f l,
  port_range_parse s = Ok (false, f, l) -> f = 0 /\ l = 0.
Proof. exact port_range_failed. Qed.
Print Assumptions C38_failure_is_zero.

Theorem C38_range_roundtrip : forall a b, 1 <= a -> a <= b -> b <= 65535 ->
  port_range_parse (print_dec a ++ ch_minus :: print_dec b) = Ok (true, a, b).
Proof. exact port_range_roundtrip. Qed.
Print Assumptions C38_range_roundtrip.

Theorem C38_single_port : forall a, 1 <= a -> a <= 65535 ->
  port_range_parse (print_dec a) = Ok (true, a, a).
Proof. exact port_single_roundtrip. Qed.
Print Assumptions C38_single_port.

(** Numbers that do not fit an int make atoi undefined: the parser is not
    total on all strings. *)
Theorem C38_total_refuted : exists s, port_range_parse s = UB.
Proof. exists (repeat 57 11). vm_compute. reflexivity. Qed.
Print Assumptions C38_total_refuted.

Example C38_ex : port_range_parse (print_dec 44450 ++ ch_minus :: print_dec 44459) = Ok (true, 44450, 44459).
Proof. vm_compute. reflexivity. Qed.
