(** Theorems about the signature/diff/patch exchange of one file (C09, C10,
    C11, C41, C42). *)
From Verif Require Import Base ListX ModelFastcdc ModelGear SpecFastcdc ProofFastcdc ModelCdc SpecCdc ProofCdc ProofCdcDiff.
Local Open Scope N_scope.

(** cdc_interface.cc:45-50: parameters used in production. *)
Definition rsync_config : config :=
  {| min_size := N.to_nat 4096; avg_size := N.to_nat 8192; max_size := N.to_nat 32768 |}.
Definition kFileIoBufferSize : nat := N.to_nat (32768 * 4).

Lemma rsync_config_ok : wf_config rsync_config /\ N.of_nat (max_size rsync_config) <= 2 ^ 31 /\
  (4 <= min_size rsync_config)%nat /\ (1 <= kFileIoBufferSize)%nat.
Proof.
  unfold wf_config, rsync_config, kFileIoBufferSize. cbn [min_size avg_size max_size].
  rewrite N2Nat.id. repeat split; try lia; discriminate.
Qed.

Lemma chunks_of_chunking w gear cfg (Hw : (1 <= w)%nat) (Hc : wf_config cfg) file cs :
  chunks_of w gear cfg file cs -> chunking w gear cfg file cs.
Proof. intros (H & <-). now apply spec_chunking. Qed.

(** Every file has exactly one list of chunks. *)
Theorem chunks_of_exists : forall w gear cfg, (1 <= w)%nat -> wf_config cfg ->
  forall file, exists cs, chunks_of w gear cfg file cs.
Proof.
  intros w gear cfg Hw Hc file. destruct (chunking_exists w gear cfg Hw Hc file) as (cs & H).
  exists cs. now apply chunking_spec in H.
Qed.

Section Production.
Variable hash : bytes -> N.
Variable w : nat.
Variable gear : byte -> N.
Variable cfg : config.
Variable iobuf : nat.
Definition params_ok : Prop :=
  (1 <= w)%nat /\ wf_config cfg /\ (1 <= iobuf)%nat /\ N.of_nat (max_size cfg) <= 2 ^ 31.

(** C09.  Whatever the speed of the hashing thread ([completed]), the messages
    sent are non-empty batches that list every chunk of the file in order,
    followed by one empty message. *)
Theorem C09_signature_lists_every_chunk : params_ok ->
  forall completed file cs, chunks_of w gear cfg file cs ->
  exists batches,
    create_signature hash w gear cfg iobuf completed file = Ok (batches ++ [empty_sigmsg]) /\
    describes hash batches cs.
Proof.
  intros (H1 & H2 & H3 & H4) completed file cs Hcs.
  apply signature_spec; auto. now apply chunks_of_chunking.
Qed.

(** C10.  The receiver ends up with the sender's file, for every basis, every
    source, and every timing on both sides. *)
Theorem C10_patch_reproduces_source : params_ok ->
  forall basis src bcs scs completed available,
  blen basis < 2 ^ 63 -> blen src < 2 ^ 63 ->
  chunks_of w gear cfg basis bcs -> chunks_of w gear cfg src scs -> no_collisions hash bcs scs ->
  exists sigs reqs ex,
    create_signature hash w gear cfg iobuf completed basis = Ok sigs /\
    create_diff hash w gear cfg iobuf available src sigs = Ok reqs /\
    patch basis reqs = Ok (src, ex).
Proof.
  intros (H1 & H2 & H3 & H4) basis src bcs scs completed available Lb Ls Hb Hs Hcol.
  apply chunks_of_chunking in Hb, Hs; auto.
  destruct (signature_spec hash w gear cfg iobuf H1 H2 H3 H4 completed basis bcs Hb) as (batches & E & D).
  destruct (patch_diff hash w gear cfg iobuf H1 H2 H3 H4 basis src Lb Ls bcs scs Hb Hs Hcol available batches D)
    as (reqs & final & E2 & _ & _ & _ & _ & _ & ex & E3).
  eauto 10.
Qed.

(** C10, terminator: exactly the last patch message is empty. *)
Theorem C10_only_terminator_empty : params_ok ->
  forall basis src bcs scs completed available,
  blen basis < 2 ^ 63 -> blen src < 2 ^ 63 ->
  chunks_of w gear cfg basis bcs -> chunks_of w gear cfg src scs -> no_collisions hash bcs scs ->
  exists sigs reqs final,
    create_signature hash w gear cfg iobuf completed basis = Ok sigs /\
    create_diff hash w gear cfg iobuf available src sigs = Ok (reqs ++ [final]) /\
    rq_sources final = [] /\ Forall (fun q => rq_sources q <> []) reqs /\
    (* each message stays far below the pump's packet limit *)
    Forall (fun q => 13 * N.of_nat (length (rq_sources q)) + blen (rq_data q)
                       <= 65536 + 13 + N.of_nat (max_size cfg)) reqs.
Proof.
  intros (H1 & H2 & H3 & H4) basis src bcs scs completed available Lb Ls Hb Hs Hcol.
  apply chunks_of_chunking in Hb, Hs; auto.
  destruct (signature_spec hash w gear cfg iobuf H1 H2 H3 H4 completed basis bcs Hb) as (batches & E & D).
  destruct (patch_diff hash w gear cfg iobuf H1 H2 H3 H4 basis src Lb Ls bcs scs Hb Hs Hcol available batches D)
    as (reqs & final & E2 & F1 & F2 & F3 & _).
  eauto 12.
Qed.

(** C41.  The executable flag the receiver derives equals the flag of the whole
    source file, although it only sees the first piece. *)
Theorem C41_executable_flag : params_ok -> (4 <= min_size cfg)%nat ->
  forall basis src bcs scs completed available,
  blen basis < 2 ^ 63 -> blen src < 2 ^ 63 ->
  chunks_of w gear cfg basis bcs -> chunks_of w gear cfg src scs -> no_collisions hash bcs scs ->
  exists sigs reqs ex,
    create_signature hash w gear cfg iobuf completed basis = Ok sigs /\
    create_diff hash w gear cfg iobuf available src sigs = Ok reqs /\
    patch basis reqs = Ok (src, ex) /\
    (ex = true <-> looks_executable src).
Proof.
  intros (H1 & H2 & H3 & H4) Hmin basis src bcs scs completed available Lb Ls Hb Hs Hcol.
  apply chunks_of_chunking in Hb, Hs; auto.
  destruct (signature_spec hash w gear cfg iobuf H1 H2 H3 H4 completed basis bcs Hb) as (batches & E & D).
  destruct (patch_diff hash w gear cfg iobuf H1 H2 H3 H4 basis src Lb Ls bcs scs Hb Hs Hcol available batches D)
    as (reqs & final & E2 & _ & _ & _ & _ & E3 & _).
  exists (batches ++ [empty_sigmsg]), (reqs ++ [final]), (is_executable src).
  split; [exact E|]. split; [exact E2|]. split; [now apply E3|].
  unfold is_executable, looks_executable, starts_with. clear.
  assert (P : forall p : bytes, (if list_eq_dec N.eq_dec (firstn (length p) src) p then true else false) = true
                         <-> exists r, src = p ++ r).
  { intros p. destruct (list_eq_dec N.eq_dec (firstn (length p) src) p) as [Ep|Ep].
    - split; [|reflexivity]. intros _. exists (skipn (length p) src). rewrite <- Ep at 1. symmetry. apply firstn_skipn.
    - split; [discriminate|]. intros (r & ->). rewrite firstn_app_exact in Ep. congruence. }
  destruct (Nat.ltb_spec (length src) 4) as [L|L].
  - split; [discriminate|]. intros (X & _). lia.
  - rewrite !orb_true_iff, !P. split; intros X.
    + split; [lia|]. tauto.
    + tauto.
Qed.

(** C42.  Only chunks that do not occur in the basis are transmitted: the
    payload of the patch messages is exactly the source chunks whose hash is
    not among the basis chunks' hashes, each occurrence once, in order. *)
Theorem C42_only_new_chunks_sent : params_ok ->
  forall basis src bcs scs completed available,
  blen basis < 2 ^ 63 -> blen src < 2 ^ 63 ->
  chunks_of w gear cfg basis bcs -> chunks_of w gear cfg src scs -> no_collisions hash bcs scs ->
  exists sigs reqs,
    create_signature hash w gear cfg iobuf completed basis = Ok sigs /\
    create_diff hash w gear cfg iobuf available src sigs = Ok reqs /\
    concat (map rq_data reqs) = concat (filter (fun c => negb (known hash bcs c)) scs).
Proof.
  intros (H1 & H2 & H3 & H4) basis src bcs scs completed available Lb Ls Hb Hs Hcol.
  apply chunks_of_chunking in Hb, Hs; auto.
  destruct (signature_spec hash w gear cfg iobuf H1 H2 H3 H4 completed basis bcs Hb) as (batches & E & D).
  destruct (patch_diff hash w gear cfg iobuf H1 H2 H3 H4 basis src Lb Ls bcs scs Hb Hs Hcol available batches D)
    as (reqs & final & E2 & F1 & _ & _ & E3 & _ & _).
  exists (batches ++ [empty_sigmsg]), (reqs ++ [final]). split; [exact E|]. split; [exact E2|].
  rewrite map_app, concat_app, E3. cbn. rewrite app_nil_r.
  (* the terminator carries no data *)
  destruct (diff_spec hash w gear cfg iobuf H1 H2 H3 H4 basis src Lb Ls bcs scs Hb Hs Hcol available batches D)
    as (p & E4 & HP & _).
  assert (rq_data final = []) as ->; [|now rewrite app_nil_r].
  rewrite E2 in E4. injection E4 as E4. unfold ps_flush in E4.
  destruct HP as [_ (dss & ds & es & _ & _ & _ & _ & Hsz & _ & Hnil & _) _ _ _].
  destruct (N.ltb_spec 0 (ps_reqsz p)).
  - change [ps_req p; empty_request] with ([ps_req p] ++ [empty_request]) in E4. rewrite app_assoc in E4.
    apply app_inj_tail in E4. destruct E4 as (_ & ->). reflexivity.
  - apply app_inj_tail in E4. destruct E4 as (_ & ->). apply Hnil.
    destruct es; [reflexivity|cbn [length] in Hsz; lia].
Qed.

(** Consequence: an unchanged file is not retransmitted at all. *)
Theorem C42_unchanged_file_sends_nothing : params_ok ->
  forall file cs completed available,
  blen file < 2 ^ 63 -> chunks_of w gear cfg file cs -> no_collisions hash cs cs ->
  exists sigs reqs,
    create_signature hash w gear cfg iobuf completed file = Ok sigs /\
    create_diff hash w gear cfg iobuf available file sigs = Ok reqs /\
    concat (map rq_data reqs) = [].
Proof.
  intros HP file cs completed available L Hc Hcol.
  destruct (C42_only_new_chunks_sent HP file file cs cs completed available L L Hc Hc Hcol) as (sigs & reqs & E1 & E2 & E3).
  exists sigs, reqs. split; [exact E1|]. split; [exact E2|]. rewrite E3.
  assert (F : filter (fun c => negb (known hash cs c)) cs = []).
  { assert (G : forall l, (forall c, In c l -> In c cs) -> filter (fun c => negb (known hash cs c)) l = []).
    { induction l as [|c l IH]; intros Hl; [reflexivity|]. cbn [filter].
      assert (K : known hash cs c = true).
      { unfold known. apply existsb_exists. exists c. split; [apply Hl; now left|apply N.eqb_refl]. }
      rewrite K. cbn [negb]. apply IH. intros c' Hc'. apply Hl. now right. }
    apply G. auto. }
  rewrite F. reflexivity.
Qed.
End Production.

(** The production parameters are covered. *)
Corollary C10_production : forall hash basis src bcs scs completed available,
  blen basis < 2 ^ 63 -> blen src < 2 ^ 63 ->
  chunks_of 64 (lookup_gear gear64) rsync_config basis bcs ->
  chunks_of 64 (lookup_gear gear64) rsync_config src scs -> no_collisions hash bcs scs ->
  exists sigs reqs ex,
    create_signature hash 64 (lookup_gear gear64) rsync_config kFileIoBufferSize completed basis = Ok sigs /\
    create_diff hash 64 (lookup_gear gear64) rsync_config kFileIoBufferSize available src sigs = Ok reqs /\
    patch basis reqs = Ok (src, ex) /\ (ex = true <-> looks_executable src).
Proof.
  intros. destruct rsync_config_ok as (K1 & K2 & K3 & K4).
  apply C41_executable_flag with (bcs := bcs) (scs := scs); auto. repeat split; auto; try apply K1. lia.
Qed.

(** *** Non-vacuity: a small configuration, a real run with a moved block, a
    schedule in which signatures arrive late. *)
Definition ex_cfg : config := {| min_size := 4; avg_size := 8; max_size := 16 |}.
Definition ex_hash (b : bytes) : N := fold_left (fun h x => h * 257 + x + 1) b 0.
Definition ex_basis : bytes := map N.of_nat (seq 0 60).
Definition ex_src : bytes := [127; 69; 76; 70] ++ skipn 4 ex_basis ++ firstn 30 ex_basis ++ [200; 201] ++ ex_basis.

Example C10_example :
  match create_signature ex_hash 64 (lookup_gear gear64) ex_cfg 10 Nat.even ex_basis with
  | Ok sigs =>
      match create_diff ex_hash 64 (lookup_gear gear64) ex_cfg 7 (fun k => (k =? 4)%nat) ex_src sigs with
      | Ok reqs => patch ex_basis reqs = Ok (ex_src, true) /\
          (2 <= length reqs)%nat /\ (length (concat (map rq_data reqs)) < length ex_src)%nat
      | _ => False
      end
  | _ => False
  end.
Proof. vm_compute. repeat split; lia. Qed.

(** *** C11 *)
Definition offsets_small (q : request) : Prop :=
  Forall (fun o => o < 2 ^ 64 - 2 ^ 32) (rq_offsets q) /\ Forall (fun z => z < 2 ^ 32) (rq_sizes q).

Lemma chunk_bytes_safe basis data s o z : o < 2 ^ 64 - 2 ^ 32 -> z < 2 ^ 32 ->
  chunk_bytes basis data s o z <> UB /\ chunk_bytes basis data s o z <> OutOfFuel.
Proof.
  intros Ho Hz. change (2 ^ 64) with 18446744073709551616 in *. change (2 ^ 32) with 4294967296 in *.
  unfold chunk_bytes, file_read. destruct (s =? SOURCE_BASIS_FILE).
  - destruct (2 ^ 63 <=? o); [split; discriminate|]. destruct (z =? 0); [split; discriminate|].
    destruct (blen basis <? o + z); split; discriminate.
  - unfold u64. change (2 ^ 64) with 18446744073709551616. rewrite N.mod_small by lia.
    destruct (N.ltb_spec (blen data) (o + z)); [split; discriminate|].
    destruct (N.ltb_spec (blen data) (o + z)); [lia|split; discriminate].
Qed.

(** Any message sequence whatever, as long as offset + size does not wrap. *)
Theorem C11_no_out_of_bounds_partial : forall basis reqs, Forall offsets_small reqs ->
  patch basis reqs <> UB /\ patch basis reqs <> OutOfFuel.
Proof.
  intros basis reqs F. unfold patch.
  assert (PC : forall data ss os zs t, Forall (fun o => o < 2 ^ 64 - 2 ^ 32) os -> Forall (fun z => z < 2 ^ 32) zs ->
     patch_commands basis data ss os zs t <> UB /\ patch_commands basis data ss os zs t <> OutOfFuel).
  { intros data ss. induction ss as [|s ss IH]; intros os zs t Fo Fz; [cbn; split; discriminate|].
    destruct os as [|o os]; [cbn; split; discriminate|]. destruct zs as [|z zs]; [cbn; split; discriminate|].
    inversion Fo; inversion Fz; subst. cbn [patch_commands].
    destruct (chunk_bytes_safe basis data s o z) as (A & B); auto.
    destruct (chunk_bytes basis data s o z); try congruence; cbn [bind]; [|split; discriminate].
    now apply IH. }
  assert (PL : forall t, patch_loop basis reqs t <> UB /\ patch_loop basis reqs t <> OutOfFuel).
  { induction F as [|q reqs (Fo & Fz) F IH]; intros t; cbn [patch_loop]; [split; discriminate|].
    match goal with |- context [negb ?x] => destruct x end; cbn [negb]; [|split; discriminate].
    destruct (rq_sources q) as [|s ss] eqn:Es; [split; discriminate|]. rewrite <- Es.
    destruct (PC (rq_data q) (rq_sources q) (rq_offsets q) (rq_sizes q) t Fo Fz) as (A & B).
    rewrite Es in *. destruct (patch_commands _ _ _ _ _ _); try congruence; cbn [bind]; [apply IH|split; discriminate]. }
  destruct (PL (mk_pt [] false true)) as (A & B). destruct (patch_loop _ _ _); try congruence; cbn [bind]; split; discriminate.
Qed.

(** Exactly which commands make the receiver read outside request.data(). *)
Theorem C11_out_of_bounds_iff : forall basis data s o z, o < 2 ^ 64 -> z < 2 ^ 32 -> blen data < 2 ^ 63 ->
  (chunk_bytes basis data s o z = UB <-> s <> SOURCE_BASIS_FILE /\ 2 ^ 64 <= o + z /\ o + z - 2 ^ 64 <= blen data).
Proof.
  intros basis data s o z Ho Hz Hd. change (2 ^ 64) with 18446744073709551616 in *. change (2 ^ 32) with 4294967296 in *.
  change (2 ^ 63) with 9223372036854775808 in *.
  unfold chunk_bytes. destruct (N.eqb_spec s SOURCE_BASIS_FILE) as [E|E].
  - split; [|tauto]. unfold file_read. destruct (2 ^ 63 <=? o); [discriminate|]. destruct (z =? 0); [discriminate|].
    destruct (blen basis <? o + z); discriminate.
  - unfold u64. change (2 ^ 64) with 18446744073709551616.
    destruct (N.lt_ge_cases (o + z) 18446744073709551616).
    + rewrite N.mod_small by assumption.
      destruct (N.ltb_spec (blen data) (o + z)); [split; [discriminate|lia]|].
      destruct (N.ltb_spec (blen data) (o + z)); [lia|split; [discriminate|lia]].
    + assert (Em : (o + z) mod 18446744073709551616 = o + z - 18446744073709551616).
      { symmetry. apply N.mod_unique with (q := 1); lia. }
      rewrite Em. destruct (N.ltb_spec (blen data) (o + z - 18446744073709551616)); [split; [discriminate|lia]|].
      destruct (N.ltb_spec (blen data) (o + z)); [split; [intros _; repeat split; auto; lia|reflexivity]|lia].
Qed.

(** So the property fails: this patch message is accepted by the size check but
    reads far outside the data. *)
Theorem C11_no_out_of_bounds_refuted :
  exists reqs, patch [] reqs = UB /\
    Forall (fun q => Forall (fun o => o < 2 ^ 64) (rq_offsets q) /\ Forall (fun z => z < 2 ^ 32) (rq_sizes q)) reqs.
Proof.
  exists [mk_request [SOURCE_DATA] [2 ^ 64 - 16] [32] (repeat 0 16)].
  split; [vm_compute; reflexivity|]. repeat constructor.
Qed.

Example C11_partial_example :
  Forall offsets_small [mk_request [SOURCE_DATA; SOURCE_BASIS_FILE; 7] [5; 2 ^ 63; 0] [3; 4; 2] [1; 2]] /\
  patch [1; 2; 3] [mk_request [SOURCE_DATA; SOURCE_BASIS_FILE; 7] [5; 2 ^ 63; 0] [3; 4; 2] [1; 2]] = Fail.
Proof. split; [repeat constructor|vm_compute; reflexivity]. Qed.

Print Assumptions C09_signature_lists_every_chunk.
Print Assumptions C10_patch_reproduces_source.
Print Assumptions C10_only_terminator_empty.
Print Assumptions C10_production.
Print Assumptions C41_executable_flag.
Print Assumptions C42_only_new_chunks_sent.
Print Assumptions C42_unchanged_file_sends_nothing.
Print Assumptions C11_no_out_of_bounds_partial.
Print Assumptions C11_out_of_bounds_iff.
Print Assumptions C11_no_out_of_bounds_refuted.
