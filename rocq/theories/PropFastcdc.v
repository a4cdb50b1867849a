(** Properties C01-C05: content-defined chunking.
    [w] is the bit width of the hash type, [gear] the look-up table. *)
From Verif Require Import Base ModelFastcdc ModelGear SpecFastcdc ProofFastcdc.

(** C01.  Any sequence of Process calls runs to completion without undefined
    behaviour; chunks plus buffered rest are exactly the input. *)
Theorem C01_chunks_concatenate_to_input :
  forall w gear cfg, 1 <= w -> wf_config cfg ->
  forall blocks, exists cs rest,
    feed w gear cfg [] blocks = Ok (cs, rest) /\
    concat cs ++ rest = concat blocks /\ length rest < max_size cfg.
Proof. exact feed_concat. Qed.
Print Assumptions C01_chunks_concatenate_to_input.

(** C01, after Finalize: nothing is left behind. *)
Theorem C01_finalized_stream_complete :
  forall w gear cfg, 1 <= w -> wf_config cfg ->
  forall blocks, Forall (fun b => b <> []) blocks ->
  exists cs, chunk_stream w gear cfg blocks = Ok (cs, []) /\ concat cs = concat blocks.
Proof.
  intros w gear cfg Hw Hc blocks F.
  destruct (chunk_stream_spec w gear cfg Hw Hc blocks F) as (cs & E & _ & C & _).
  exact (ex_intro _ cs (conj E C)).
Qed.
Print Assumptions C01_finalized_stream_complete.

(** C02.  Two ways of feeding the same bytes give the same chunks. *)
Theorem C02_split_independent :
  forall w gear cfg, 1 <= w -> wf_config cfg ->
  forall blocks1 blocks2,
  Forall (fun b => b <> []) blocks1 -> Forall (fun b => b <> []) blocks2 ->
  concat blocks1 = concat blocks2 ->
  exists cs, chunk_stream w gear cfg blocks1 = Ok (cs, []) /\
             chunk_stream w gear cfg blocks2 = Ok (cs, []).
Proof. exact chunk_stream_same. Qed.
Print Assumptions C02_split_independent.

(** C02, with empty blocks: an empty Process call ends a stream; each stream is
    chunked on its own, exactly as specified. *)
Theorem C02_empty_block_ends_stream :
  forall w gear cfg, 1 <= w -> wf_config cfg ->
  forall blocks, exists css tl rest,
  feed w gear cfg [] blocks = Ok (concat css ++ tl, rest) /\
  Forall2 (fun s cs => is_chunking w gear cfg cs /\ concat cs = s)
     (fst (split_streams [] blocks)) css /\
  concat tl ++ rest = snd (split_streams [] blocks).
Proof. exact feed_streams. Qed.
Print Assumptions C02_empty_block_ends_stream.

(** C02, online: chunks already emitted never depend on later data. *)
Theorem C02_emitted_chunks_final :
  forall w gear cfg, 1 <= w -> wf_config cfg ->
  forall blocks more cs rest,
  feed w gear cfg [] blocks = Ok (cs, rest) ->
  exists cs' rest', feed w gear cfg [] (blocks ++ more) = Ok (cs ++ cs', rest').
Proof. exact feed_prefix. Qed.
Print Assumptions C02_emitted_chunks_final.

(** C03.  Size limits. *)
Theorem C03_chunk_sizes :
  forall w gear cfg, 1 <= w -> wf_config cfg ->
  forall blocks, Forall (fun b => b <> []) blocks ->
  exists cs, chunk_stream w gear cfg blocks = Ok (cs, []) /\
    Forall (fun c => 1 <= length c <= max_size cfg) cs /\
    (forall pre c post, cs = pre ++ c :: post -> post <> [] -> min_size cfg <= length c).
Proof.
  intros w gear cfg Hw Hc blocks F.
  destruct (chunk_stream_spec w gear cfg Hw Hc blocks F) as (cs & E & _ & _ & S).
  exact (ex_intro _ cs (conj E S)).
Qed.
Print Assumptions C03_chunk_sizes.

(** C04.  Every chunk ends at the documented boundary of the data that remains
    at its start, and the documented rule determines the chunks uniquely. *)
Theorem C04_boundaries_follow_rule :
  forall w gear cfg, 1 <= w -> wf_config cfg ->
  forall blocks, Forall (fun b => b <> []) blocks ->
  exists cs, chunk_stream w gear cfg blocks = Ok (cs, []) /\ is_chunking w gear cfg cs.
Proof.
  intros w gear cfg Hw Hc blocks F.
  destruct (chunk_stream_spec w gear cfg Hw Hc blocks F) as (cs & E & S & _).
  exact (ex_intro _ cs (conj E S)).
Qed.
Print Assumptions C04_boundaries_follow_rule.

Theorem C04_rule_is_deterministic :
  forall w gear cfg, 1 <= w -> wf_config cfg ->
  forall cs1 cs2, is_chunking w gear cfg cs1 -> is_chunking w gear cfg cs2 ->
  concat cs1 = concat cs2 -> cs1 = cs2.
Proof. exact is_chunking_unique. Qed.
Print Assumptions C04_rule_is_deterministic.

(** C05.  Once two files share a chunk boundary and have the same remainder,
    the remaining chunks coincide, whatever came before. *)
Theorem C05_resynchronisation :
  forall w gear cfg, 1 <= w -> wf_config cfg ->
  forall blocks1 blocks2 pre1 pre2 t1 t2,
  Forall (fun b => b <> []) blocks1 -> Forall (fun b => b <> []) blocks2 ->
  chunk_stream w gear cfg blocks1 = Ok (pre1 ++ t1, []) ->
  chunk_stream w gear cfg blocks2 = Ok (pre2 ++ t2, []) ->
  concat t1 = concat t2 -> t1 = t2.
Proof. exact resync_streams. Qed.
Print Assumptions C05_resynchronisation.

(** C05.  The hash deciding about position [i] is a function of the [w] bytes
    before it, wherever it lies in a chunk (from max(min_size, w) on). *)
Theorem C05_decision_is_local :
  forall w gear cfg, 1 <= w ->
  forall d1 d2 i1 i2,
  min_size cfg <= i1 <= length d1 -> min_size cfg <= i2 <= length d2 ->
  w <= i1 -> w <= i2 ->
  skipn (i1 - w) (firstn i1 d1) = skipn (i2 - w) (firstn i2 d2) ->
  hash_at w gear cfg d1 i1 = hash_at w gear cfg d2 i2.
Proof. exact hash_at_window. Qed.
Print Assumptions C05_decision_is_local.

(** The real tables have 256 entries that fit the hash type. *)
Theorem C04_gear_tables_total :
  length gear32 = 256 /\ length gear64 = 256 /\
  Forall (fun x => x < 2 ^ 32)%N gear32 /\ Forall (fun x => x < 2 ^ 64)%N gear64.
Proof.
  repeat split; try reflexivity; apply Forall_forall; intros x Hx.
  - assert (A : forallb (fun x => x <? 2 ^ 32)%N gear32 = true) by (vm_compute; reflexivity).
    rewrite forallb_forall in A. apply N.ltb_lt, A, Hx.
  - assert (A : forallb (fun x => x <? 2 ^ 64)%N gear64 = true) by (vm_compute; reflexivity).
    rewrite forallb_forall in A. apply N.ltb_lt, A, Hx.
Qed.
Print Assumptions C04_gear_tables_total.

(** ** Non-vacuity *)
Definition cfg_ex : config := {| min_size := 4; avg_size := 8; max_size := 16 |}.
Definition data_ex : bytes := map N.of_nat (seq 0 40).

Example wf_ex : 1 <= 64 /\ wf_config cfg_ex.
Proof. unfold wf_config, cfg_ex; simpl; lia. Qed.

(** The production table: the chunker finds a content-defined boundary and a
    regression boundary, not just maximum-size chunks. *)
Example chunks_ex : exists cs,
  chunk_stream 64 (lookup_gear gear64) cfg_ex [data_ex] = Ok (cs, []) /\
  map (@length _) cs <> [16; 16; 8] /\ 3 <= length cs.
Proof.
  destruct (chunk_stream 64 (lookup_gear gear64) cfg_ex [data_ex]) as [[cs r]| | |] eqn:E;
    vm_compute in E; try discriminate.
  inversion E; subst. eexists. split; [reflexivity|]. split; [discriminate|simpl; lia].
Qed.

Example chunks_ex_split :
  chunk_stream 64 (lookup_gear gear64) cfg_ex [data_ex] =
  chunk_stream 64 (lookup_gear gear64) cfg_ex (map (fun b => [b]) data_ex).
Proof. vm_compute. reflexivity. Qed.

(** min_size = 0 is allowed and still yields non-empty chunks. *)
Example min_zero_ex :
  wf_config {| min_size := 0; avg_size := 1; max_size := 2 |} /\
  exists cs, chunk_stream 32 (lookup_gear gear32) {| min_size := 0; avg_size := 1; max_size := 2 |} [data_ex]
     = Ok (cs, []) /\ 20 <= length cs.
Proof.
  split; [unfold wf_config; simpl; lia|].
  eexists; split; [vm_compute; reflexivity|simpl; lia].
Qed.
