From Verif Require Import Base ListX ModelFastcdc SpecFastcdc ProofFastcdc ModelCdc SpecCdc.
Local Open Scope N_scope.

Arguments N.add : simpl never.
Arguments N.mul : simpl never.
Arguments N.sub : simpl never.
Arguments N.ltb : simpl never.
Arguments N.leb : simpl never.
Arguments N.eqb : simpl never.
Arguments N.pow : simpl never.
Arguments N.modulo : simpl never.

(** ** Generic facts *)
Lemma blen_app a b : blen (a ++ b) = blen a + blen b.
Proof. unfold blen. rewrite app_length. lia. Qed.

Lemma stream_read_inv {S} iobuf file handler (I : nat -> S -> Prop) (Q : S -> Prop) :
  (1 <= iobuf)%nat ->
  (forall pos st block, block = firstn iobuf (skipn pos file) -> block <> [] -> I pos st ->
     exists st', handler (pos + length block)%nat st (Some block) = Ok ((pos + length block)%nat, st') /\
       I (pos + length block)%nat st') ->
  (forall st, I (length file) st -> exists st', handler (length file) st None = Ok (length file, st') /\ Q st') ->
  forall fuel pos st, (length file - pos < fuel)%nat -> (pos <= length file)%nat -> I pos st ->
  exists st', stream_read S iobuf file handler fuel pos st = Ok (length file, st') /\ Q st'.
Proof.
  intros Hio Hs He. induction fuel as [|f IH]; intros pos st Hf Hp HI; [lia|].
  cbn [stream_read].
  assert (Hlen : length (firstn iobuf (skipn pos file)) = Nat.min iobuf (length file - pos))
    by (rewrite firstn_length, skipn_length; reflexivity).
  remember (firstn iobuf (skipn pos file)) as block eqn:Eb.
  assert (G : exists st1, match block with [] => Ok ((pos + length block)%nat, st) | _ :: _ => handler (pos + length block)%nat st (Some block) end
      = Ok ((pos + length block)%nat, st1) /\ I (pos + length block)%nat st1).
  { destruct block as [|b bl] eqn:E.
    - exists st. split; [reflexivity|]. simpl. now rewrite Nat.add_0_r.
    - rewrite <- E in *. apply Hs; auto. subst; discriminate. }
  destruct G as (st1 & E1 & I1). rewrite E1. cbn [bind fst snd].
  destruct (Nat.eqb_spec (length block) iobuf) as [El|El].
  - apply IH; [lia|lia|exact I1].
  - replace (pos + length block)%nat with (length file) in * by lia. now apply He.
Qed.

(** ** Chunking while streaming *)
Section Cdc.
Variable hash : bytes -> N.
Variable w : nat.
Variable gear : byte -> N.
Variable cfg : config.
Variable iobuf : nat.
Hypothesis Hw : (1 <= w)%nat.
Hypothesis Hcfg : wf_config cfg.
Hypothesis Hio : (1 <= iobuf)%nat.
Hypothesis Hmax : N.of_nat (max_size cfg) <= 2 ^ 31.

Notation chunking := (ProofFastcdc.chunking w gear cfg).

Lemma chunking_exists data : exists cs, chunking data cs.
Proof. destruct (process_eof w gear cfg Hw Hcfg data) as (cs & _ & H). eauto. Qed.

Definition CI (file : bytes) (p : list bytes) (buf : bytes) (pos : nat) : Prop :=
  (length buf < max_size cfg)%nat /\
  forall tl, chunking (buf ++ skipn pos file) tl -> chunking file (p ++ tl).

Lemma CI_init file : CI file [] [] 0.
Proof. split; [destruct Hcfg as (A & B & C); simpl; lia|]. intros tl H. exact H. Qed.

Lemma CI_step file p buf pos block : CI file p buf pos ->
  block = firstn iobuf (skipn pos file) -> block <> [] ->
  exists cs buf', process w gear cfg buf block = Ok (cs, buf') /\
    CI file (p ++ cs) buf' (pos + length block).
Proof.
  intros (Hb & HI) Eb Hne. destruct block as [|b block]; [congruence|].
  destruct (process_more w gear cfg Hw Hcfg buf b block) as (cs & rest & E & _ & Hr & Hx).
  exists cs, rest. split; [exact E|]. split; [exact Hr|].
  intros tl Htl. rewrite <- app_assoc. apply HI.
  assert (Es : skipn pos file = (b :: block) ++ skipn (pos + length (b :: block)) file).
  { rewrite Nat.add_comm, <- skipn_skipn. rewrite <- (firstn_skipn iobuf (skipn pos file)) at 1.
    rewrite <- Eb. f_equal.
    destruct (Nat.le_ge_cases iobuf (length (skipn pos file))) as [L|L].
    - f_equal. rewrite Eb, firstn_length. lia.
    - rewrite (skipn_all2 (skipn pos file)) by assumption.
      symmetry. apply skipn_all2. rewrite Eb, firstn_length. lia. }
  rewrite Es. now apply Hx.
Qed.

Lemma CI_eof file p buf : CI file p buf (length file) ->
  exists cs, process w gear cfg buf [] = Ok (cs, []) /\ chunking file (p ++ cs).
Proof.
  intros (Hb & HI). destruct (process_eof w gear cfg Hw Hcfg buf) as (cs & E & H).
  exists cs. split; [exact E|]. apply HI. rewrite skipn_all, app_nil_r. exact H.
Qed.

Lemma CI_prefix file p buf pos C : CI file p buf pos -> chunking file C -> exists t, C = p ++ t.
Proof.
  intros (_ & HI) HC. destruct (chunking_exists (buf ++ skipn pos file)) as (tl & Htl).
  exists tl. eapply chunking_det; eauto.
Qed.

Lemma process_nil : process w gear cfg [] [] = Ok ([], []).
Proof. reflexivity. Qed.

Lemma chunk_u32 file C c : chunking file C -> In c C -> u32 (blen c) = blen c /\ c <> [] /\ blen c <= N.of_nat (max_size cfg).
Proof.
  intros HC Hin. destruct (chunking_sizes w gear cfg Hw Hcfg file C HC) as (F & _).
  rewrite Forall_forall in F. specialize (F c Hin).
  assert (blen c <= N.of_nat (max_size cfg)) by (unfold blen; lia).
  split; [|split; [destruct c; [simpl in F; lia|discriminate]|assumption]].
  unfold u32. apply N.mod_small. change (2 ^ 31) with 2147483648 in *. change (2 ^ 32) with 4294967296. lia.
Qed.

(** ** Signature *)
Variable completed : nat -> bool.

Record SI (file : bytes) (pos : nat) (s : sg) : Prop := {
  si_ex : exists p, CI file p (sg_buf s) pos /\
    concat (map sm_sizes (sg_out s)) ++ sm_sizes (sg_resp s) ++ map blen (sg_pending s) = map blen p /\
    concat (map sm_hashes (sg_out s)) ++ sm_hashes (sg_resp s) ++ map hash (sg_pending s) = map hash p;
  si_num : sg_num s = N.of_nat (length (sg_pending s));
  si_out : Forall (fun m => sm_sizes m <> [] /\ length (sm_hashes m) = length (sm_sizes m)) (sg_out s);
  si_resp : length (sm_hashes (sg_resp s)) = length (sm_sizes (sg_resp s));
  si_small : Forall (fun c => u32 (blen c) = blen c) (sg_pending s)
}.

Lemma collect_spec file pos fuel : forall s, (length (sg_pending s) < fuel)%nat -> SI file pos s ->
  exists s', collect hash completed fuel s = Ok s' /\ SI file pos s'.
Proof.
  induction fuel as [|f IH]; intros s Hf HI; [lia|]. cbn [collect].
  assert (Take : forall c rest tick, sg_pending s = c :: rest ->
    exists s', collect hash completed f (mk_sg (sg_buf s) rest (sg_num s - 1) (append_hash hash (sg_resp s) c) (sg_out s) tick) = Ok s'
      /\ SI file pos s').
  { intros c rest tick E. destruct HI as [(p & HC & H1 & H2) Hn Ho Hr Hs]. rewrite E in *.
    apply IH; [cbn [sg_pending length] in *; lia|]. inversion Hs; subst. constructor; cbn [sg_buf sg_pending sg_num sg_resp sg_out].
    - exists p. split; [exact HC|]. cbn [append_hash sm_sizes sm_hashes map] in *.
      rewrite H3. rewrite <- !app_assoc. cbn [app]. auto.
    - cbn [length] in Hn. lia.
    - exact Ho.
    - cbn. rewrite !app_length. cbn [length]. lia.
    - assumption. }
  destruct (N.leb_spec kMaxNumHashTasks (sg_num s)) as [L|L].
  - destruct (sg_pending s) as [|c rest] eqn:E.
    + destruct HI as [_ Hn _ _ _]. rewrite E in Hn. cbn in Hn. unfold kMaxNumHashTasks in L. lia.
    + apply Take. reflexivity.
  - destruct (sg_pending s) as [|c rest] eqn:E.
    + eexists; split; [reflexivity|]. destruct HI as [(p & HC & H1 & H2) Hn Ho Hr Hs]. rewrite E in *.
      constructor; cbn [sg_buf sg_pending sg_num sg_resp sg_out]; auto. eauto.
    + destruct (completed (sg_tick s)); [apply Take; reflexivity|].
      eexists; split; [reflexivity|]. destruct HI as [(p & HC & H1 & H2) Hn Ho Hr Hs]. rewrite E in *.
      constructor; cbn [sg_buf sg_pending sg_num sg_resp sg_out]; auto. eauto.
Qed.

(** After adding chunks to the pool: collect and maybe send. *)
Lemma sg_finish file pos buf s cs p : 
  sg_num s = N.of_nat (length (sg_pending s)) ->
  Forall (fun m => sm_sizes m <> [] /\ length (sm_hashes m) = length (sm_sizes m)) (sg_out s) ->
  length (sm_hashes (sg_resp s)) = length (sm_sizes (sg_resp s)) ->
  Forall (fun c => u32 (blen c) = blen c) (sg_pending s) ->
  concat (map sm_sizes (sg_out s)) ++ sm_sizes (sg_resp s) ++ map blen (sg_pending s) = map blen p ->
  concat (map sm_hashes (sg_out s)) ++ sm_hashes (sg_resp s) ++ map hash (sg_pending s) = map hash p ->
  Forall (fun c => u32 (blen c) = blen c) cs ->
  CI file (p ++ cs) buf pos ->
  forall pos' : nat, exists s',
   (do s <- collect hash completed (S (length (sg_pending s ++ cs)))
       (mk_sg buf (sg_pending s ++ cs) (sg_num s + N.of_nat (length cs)) (sg_resp s) (sg_out s) (sg_tick s));
    if kMinNumChunksPerBatch <=? N.of_nat (length (sm_sizes (sg_resp s))) then
      Ok (pos', mk_sg (sg_buf s) (sg_pending s) (sg_num s) empty_sigmsg (sg_out s ++ [sg_resp s]) (sg_tick s))
    else Ok (pos', s)) = Ok (pos', s') /\ SI file pos s'.
Proof.
  intros Hn Ho Hr Hs H1 H2 Hcs HC pos'.
  destruct (collect_spec file pos (S (length (sg_pending s ++ cs)))
       (mk_sg buf (sg_pending s ++ cs) (sg_num s + N.of_nat (length cs)) (sg_resp s) (sg_out s) (sg_tick s)))
    as (s1 & E1 & I1).
  { cbn [sg_pending]. lia. }
  { constructor; cbn [sg_buf sg_pending sg_num sg_resp sg_out]; auto.
    - exists (p ++ cs). split; [exact HC|]. rewrite !map_app, <- H1, <- H2, <- !app_assoc. auto.
    - rewrite app_length. lia.
    - apply Forall_app. auto. }
  rewrite E1. cbn [bind].
  destruct (N.leb_spec kMinNumChunksPerBatch (N.of_nat (length (sm_sizes (sg_resp s1))))) as [L|L].
  - eexists; split; [reflexivity|]. destruct I1 as [(p1 & HC1 & G1 & G2) Gn Go Gr Gs].
    constructor; cbn [sg_buf sg_pending sg_num sg_resp sg_out]; auto.
    + exists p1. split; [exact HC1|]. rewrite !map_app, !concat_app. cbn. rewrite !app_nil_r, <- !app_assoc. auto.
    + apply Forall_app. split; [exact Go|]. constructor; [|constructor]. split; [|exact Gr].
      intros X. rewrite X in L. cbn in L. discriminate L || (unfold kMinNumChunksPerBatch in L; lia).
  - eauto.
Qed.

Lemma fold_append cs : forall r, Forall (fun c => u32 (blen c) = blen c) cs ->
  sm_sizes (fold_left (append_hash hash) cs r) = sm_sizes r ++ map blen cs /\
  sm_hashes (fold_left (append_hash hash) cs r) = sm_hashes r ++ map hash cs.
Proof.
  induction cs as [|c cs IH]; intros r F; cbn [fold_left map].
  - now rewrite !app_nil_r.
  - inversion F; subst. destruct (IH (append_hash hash r c) H2) as (A & B). rewrite A, B.
    cbn [append_hash sm_sizes sm_hashes]. rewrite H1, <- !app_assoc. auto.
Qed.

Theorem signature_spec file C : chunking file C ->
  exists batches, create_signature hash w gear cfg iobuf completed file = Ok (batches ++ [empty_sigmsg]) /\
    describes hash batches C.
Proof.
  intros HC.
  assert (Small : forall p buf pos, CI file p buf pos -> Forall (fun c => u32 (blen c) = blen c) p).
  { intros p buf pos HI. destruct (CI_prefix _ _ _ _ _ HI HC) as (t & Et). rewrite Forall_forall. intros c Hin.
    eapply chunk_u32; [exact HC|]. rewrite Et. apply in_or_app. auto. }
  unfold create_signature.
  destruct (stream_read_inv iobuf file (sg_handler hash w gear cfg completed) (SI file)
              (fun s => (exists p, chunking file p /\ sg_buf s = [] /\
                 concat (map sm_sizes (sg_out s)) ++ sm_sizes (sg_resp s) ++ map blen (sg_pending s) = map blen p /\
                 concat (map sm_hashes (sg_out s)) ++ sm_hashes (sg_resp s) ++ map hash (sg_pending s) = map hash p) /\
                 SI file (length file) s) Hio) with (fuel := S (length file)) (pos := 0%nat)
              (st := mk_sg [] [] 0 empty_sigmsg [] 0%nat) as (s & E & (p & Hp & Hb & H1 & H2) & HI).
  - intros pos s block Eb Hne [(p & HCI & G1 & G2) Gn Go Gr Gs].
    destruct (CI_step file p (sg_buf s) pos block HCI Eb Hne) as (cs & buf' & Ep & HCI').
    unfold sg_handler. rewrite Ep. cbn [bind]. cbn [sg_pending].
    apply sg_finish with (p := p); auto.
    apply Small in HCI'. apply Forall_app in HCI'. tauto.
  - intros s [(p & HCI & G1 & G2) Gn Go Gr Gs].
    destruct (CI_eof file p (sg_buf s) HCI) as (cs & Ep & Hch).
    unfold sg_handler. rewrite Ep. cbn [bind]. cbn [sg_pending].
    assert (HCI' : CI file (p ++ cs) [] (length file)).
    { split; [destruct Hcfg as (? & ? & ?); simpl; lia|]. intros tl Htl. rewrite skipn_all in Htl. cbn in Htl.
      inversion Htl; subst; [now rewrite app_nil_r|congruence]. }
    destruct (sg_finish file (length file) [] s cs p) with (pos' := length file) as (s' & E' & I'); auto.
    { apply Small in HCI'. apply Forall_app in HCI'. tauto. }
    exists s'. split; [exact E'|]. split; [|exact I'].
    destruct I' as [(p' & HCI2 & K1 & K2) _ _ _ _]. exists p'. 
    assert (Bnil : sg_buf s' = []).
    { revert E'. clear. intros E'.
      assert (Cb : forall f s0 s1, collect hash completed f s0 = Ok s1 -> sg_buf s1 = sg_buf s0).
      { induction f as [|f IH]; intros s0 s1; cbn [collect]; [discriminate|].
        destruct (kMaxNumHashTasks <=? sg_num s0).
        - destruct (sg_pending s0); [discriminate|]. intros H. apply IH in H. exact H.
        - destruct (sg_pending s0); [intros H; now inversion H|].
          destruct (completed (sg_tick s0)); [intros H; apply IH in H; exact H|intros H; now inversion H]. }
      match type of E' with (bind ?x _) = _ => destruct x as [s1| | |] eqn:Ec; try discriminate end.
      apply Cb in Ec. cbn [bind] in E'. cbn [sg_buf] in Ec.
      destruct (kMinNumChunksPerBatch <=? N.of_nat (length (sm_sizes (sg_resp s1)))); inversion E'; subst; exact Ec. }
    split; [|auto]. rewrite Bnil in HCI2. destruct HCI2 as (_ & HX).
    specialize (HX [] ). rewrite app_nil_r in HX. apply HX. rewrite skipn_all. cbn. constructor.
  - lia.
  - lia.
  - constructor; cbn; auto. exists []. split; [apply CI_init|]. auto.
  - rewrite E. cbn [bind snd]. rewrite Hb, process_nil. cbn [bind fst]. rewrite app_nil_r.
    assert (p = C) by (eapply chunking_det; eauto). subst p.
    destruct HI as [_ _ Go Gr Gs].
    destruct (fold_append (sg_pending s) (sg_resp s) Gs) as (F1 & F2).
    remember (fold_left (append_hash hash) (sg_pending s) (sg_resp s)) as resp.
    rewrite <- F1 in H1. rewrite <- F2 in H2.
    assert (Lr : length (sm_hashes resp) = length (sm_sizes resp))
      by (rewrite F1, F2, !app_length, !map_length; lia).
    exists (sg_out s ++ match sm_sizes resp with [] => [] | _ :: _ => [resp] end).
    rewrite <- app_assoc. split; [reflexivity|].
    destruct (sm_sizes resp) as [|z zs] eqn:Ez.
    + destruct (sm_hashes resp); [|discriminate]. rewrite !app_nil_r in *.
      split; [exact H1|]. split; [exact H2|]. exact Go.
    + split; [|split].
      * rewrite map_app, concat_app. cbn [map concat]. rewrite app_nil_r, Ez. exact H1.
      * rewrite map_app, concat_app. cbn [map concat]. rewrite app_nil_r. exact H2.
      * apply Forall_app. split; [exact Go|]. constructor; [|constructor]. rewrite Ez. split; [discriminate|exact Lr].
Qed.
End Cdc.
