(** Proofs for C61. *)
From Verif Require Import Base ListX Str ModelChunkMap SpecChunkMap PropChunkMap SpecContent ModelProvider ModelContent.
From Coq Require Import Lia.
Local Open Scope N_scope.

Lemma padded_length c off size : length (padded c off size) = size.
Proof. unfold padded. rewrite app_length, repeat_length. pose proof (firstn_le_length size (skipn off c)). lia. Qed.
Lemma read_from_file_some w io p off size d : read_from_file w io p off size = Some d ->
  (d = [] /\ size = 0 \/ exists content, w_files w p = Some content /\ d = padded content (N.to_nat off) (N.to_nat size)) /\ N.of_nat (length d) = size.
Proof.
  unfold read_from_file. rewrite repeat_length. unfold read_file. destruct (Nat.eqb_spec (N.to_nat size) 0) as [E|E].
  - intros X. inversion X; subst. assert (size = 0) by lia. subst. split; [left; auto|reflexivity].
  - destruct (w_files w p) as [c|] eqn:F; [|discriminate]. destruct io; [discriminate|]. intros X. inversion X; subst. fold (padded c (N.to_nat off) (N.to_nat size)). split; [right; eauto|]. rewrite padded_length. lia.
Qed.
Definition sent (n : list note) : list N := flat_map (fun x => match x with NSent s => [s] | _ => [] end) n.

Lemma get_content_ok ws io ids : forall i l n, get_content ws io i ids = Ok (Some l, n) ->
  length l = length ids /\ (forall k id d, nth_error ids k = Some id -> nth_error l k = Some d -> answers (ws (i + k)%nat) id d) /\
  sent n = map (fun d => N.of_nat (length d)) l.
Proof.
  induction ids as [|id ids IH]; intros i l n H; cbn [get_content] in H.
  - inversion H; subst. split; [reflexivity|]. split; [intros [|k]; discriminate|reflexivity].
  - destruct (find_chunk (w_map (ws i)) id) as [[((p, off), size)|]| | |] eqn:F; try discriminate.
    + destruct (read_from_file (ws i) (io i) p off size) as [d|] eqn:R; [|discriminate].
      destruct (get_content ws io (S i) ids) as [([l2|], n2)| | |] eqn:G; cbn in H; try discriminate. inversion H; subst. destruct (IH _ _ _ G) as (L & A & Sn). destruct (read_from_file_some _ _ _ _ _ _ R) as (R1 & R2). split; [cbn; now rewrite L|]. split.
      * intros [|k] id2 d2 H1 H2; cbn in H1, H2.
        -- inversion H1; inversion H2; subst. rewrite Nat.add_0_r. left. eexists _, _, _. split; [exact F|exact R1].
        -- replace (i + S k)%nat with (S i + k)%nat by lia. eauto.
      * cbn. now rewrite R2, <- Sn.
    + destruct (if io i then None else w_store (ws i) id) as [d|] eqn:R; [|discriminate].
      destruct (get_content ws io (S i) ids) as [([l2|], n2)| | |] eqn:G; cbn in H; try discriminate. inversion H; subst. destruct (IH _ _ _ G) as (L & A & Sn). split; [cbn; now rewrite L|]. split.
      * intros [|k] id2 d2 H1 H2; cbn in H1, H2.
        -- inversion H1; inversion H2; subst. rewrite Nat.add_0_r. right. split; [exact F|]. destruct (io i); [discriminate|exact R].
        -- replace (i + S k)%nat with (S i + k)%nat by lia. eauto.
      * cbn. now rewrite <- Sn.
Qed.
(** If it fails, some chunk could not be read; the chunks before it were counted. *)
Lemma get_content_fail ws io ids : forall i n, get_content ws io i ids = Ok (None, n) ->
  exists ids1 id ids2 l, ids = ids1 ++ id :: ids2 /\ get_content ws io i ids1 = Ok (Some l, n) /\
    (forall d, ~ (io (i + length ids1)%nat = false /\ answers (ws (i + length ids1)%nat) id d)).
Proof.
  induction ids as [|id ids IH]; intros i n H; cbn [get_content] in H; [discriminate|].
  destruct (find_chunk (w_map (ws i)) id) as [[((p, off), size)|]| | |] eqn:F; try discriminate.
  - destruct (read_from_file (ws i) (io i) p off size) as [d|] eqn:R.
    + destruct (get_content ws io (S i) ids) as [([l2|], n2)| | |] eqn:G; cbn in H; try discriminate. inversion H; subst. destruct (IH _ _ G) as (ids1 & x & ids2 & l & -> & G1 & X). exists (id :: ids1), x, ids2, (d :: l). split; [reflexivity|]. split; [cbn [get_content]; rewrite F, R, G1; reflexivity|]. cbn [length]. replace (i + S (length ids1))%nat with (S i + length ids1)%nat by lia. exact X.
    + inversion H; subst. exists [], id, ids, []. split; [reflexivity|]. split; [reflexivity|]. cbn [length]. rewrite Nat.add_0_r. intros d (Io & [A|A]).
      * destruct A as (p2 & off2 & size2 & F2 & A). rewrite F in F2. inversion F2; subst. unfold read_from_file in R. rewrite repeat_length in R. unfold read_file in R. destruct (N.to_nat size2 =? 0)%nat eqn:Z; [discriminate|]. apply Nat.eqb_neq in Z. destruct A as [(-> & ->)|(c & Fc & _)]; [cbn in Z; lia|]. rewrite Fc, Io in R. discriminate.
      * destruct A as (F2 & _). rewrite F in F2. discriminate.
  - destruct (if io i then None else w_store (ws i) id) as [d|] eqn:R.
    + destruct (get_content ws io (S i) ids) as [([l2|], n2)| | |] eqn:G; cbn in H; try discriminate. inversion H; subst. destruct (IH _ _ G) as (ids1 & x & ids2 & l & -> & G1 & X). exists (id :: ids1), x, ids2, (d :: l). split; [reflexivity|]. split; [cbn [get_content]; rewrite F, R, G1; reflexivity|]. cbn [length]. replace (i + S (length ids1))%nat with (S i + length ids1)%nat by lia. exact X.
    + inversion H; subst. exists [], id, ids, []. split; [reflexivity|]. split; [reflexivity|]. cbn [length]. rewrite Nat.add_0_r. intros d (Io & [A|A]).
      * destruct A as (p2 & off2 & size2 & F2 & _). rewrite F in F2. discriminate.
      * destruct A as (_ & A). rewrite Io in R. congruence.
Qed.
(** With unchanged files: no misbehaviour, and the answer is the chunk. *)
Lemma unchanged_find truth w id : unchanged truth w -> find_chunk (w_map w) id = Ok None \/ exists p off size, find_chunk (w_map w) id = Ok (Some (p, off, size)) /\
  exists c, w_files w p = Some c /\ (N.to_nat off + N.to_nat size <= length c)%nat /\ truth id = Some (firstn (N.to_nat size) (skipn (N.to_nat off) c)).
Proof.
  intros (ops & order & later & A & P & NF & Em & S & F & Ex & St). destruct (C33_lookup ops order later id A P NF S) as [(L & _)|(p & f & off & e & L & D & Li)]; rewrite Em.
  - now left.
  - right. destruct (F p f id off e D Li) as (B1 & B2 & B3). destruct (w_files w p) as [c|] eqn:Ec; [|now elim (Ex p f D)]. specialize (B3 c eq_refl). rewrite (C33_size f id off e Li B1 B2) in L. exists p, off, (e - off). split; [exact L|]. exists c. split; [exact Ec|]. split; [lia|exact (proj2 B3)].
Qed.
Lemma padded_inside c off size : (off + size <= length c)%nat -> padded c off size = firstn size (skipn off c).
Proof. intros H. unfold padded. rewrite firstn_length, skipn_length. replace (size - _)%nat with 0%nat by lia. apply app_nil_r. Qed.
Lemma unchanged_answers truth w id d : unchanged truth w -> answers w id d -> truth id = Some d.
Proof.
  intros U A. destruct (unchanged_find truth w id U) as [F|(p & off & size & F & c & Ec & B & T)].
  - destruct A as [(p & off & size & F2 & _)|(_ & A)]; [congruence|]. destruct U as (ops & order & later & _ & _ & _ & _ & _ & _ & _ & St). auto.
  - destruct A as [(p2 & off2 & size2 & F2 & A)|(F2 & _)]; [|congruence]. rewrite F in F2. inversion F2; subst. rewrite T. f_equal. destruct A as [(-> & ->)|(c2 & E2 & ->)]; [reflexivity|]. assert (c2 = c) by congruence. subst. now rewrite padded_inside.
Qed.
Lemma get_content_defined truth ws io ids : (forall i, unchanged truth (ws i)) -> forall i, exists l n, get_content ws io i ids = Ok (l, n).
Proof.
  intros U. induction ids as [|id ids IH]; intros i; cbn [get_content]; [eauto|]. destruct (IH (S i)) as (l & n & G). rewrite G.
  destruct (unchanged_find truth (ws i) id (U i)) as [F|(p & off & size & F & _)]; rewrite F.
  - destruct (if io i then None else w_store (ws i) id); eauto.
  - destruct (read_from_file (ws i) (io i) p off size); eauto.
Qed.
(** A list answer consists of single answers. *)
Lemma get_content_fetches (P : world -> Prop) ws io ids : (forall i, P (ws i)) -> forall i l n, get_content ws io i ids = Ok (Some l, n) -> Forall2 (fun id d => r_fetch (grpc_reader P) id (FOk d)) ids l.
Proof.
  intros HP. induction ids as [|id ids IH]; intros i l n H; cbn [get_content] in H; [inversion H; constructor|].
  destruct (find_chunk (w_map (ws i)) id) as [[((p, off), size)|]| | |] eqn:F; try discriminate.
  - destruct (read_from_file (ws i) (io i) p off size) as [d|] eqn:R; [|discriminate].
    destruct (get_content ws io (S i) ids) as [([l2|], n2)| | |] eqn:G; cbn in H; try discriminate. inversion H; subst. constructor; [|eauto].
    exists (fun k => ws (i + k)%nat), (fun k => io (i + k)%nat). split; [intros k; apply HP|]. unfold client_get. cbn [get_content]. rewrite Nat.add_0_r, F, R. reflexivity.
  - destruct (if io i then None else w_store (ws i) id) as [d|] eqn:R; [|discriminate].
    destruct (get_content ws io (S i) ids) as [([l2|], n2)| | |] eqn:G; cbn in H; try discriminate. inversion H; subst. constructor; [|eauto].
    exists (fun k => ws (i + k)%nat), (fun k => io (i + k)%nat). split; [intros k; apply HP|]. unfold client_get. cbn [get_content]. rewrite Nat.add_0_r, F, R. reflexivity.
Qed.
Lemma client_get_answers ws io id d : client_get ws io id = Ok (Some d) -> answers (ws 0%nat) id d.
Proof.
  unfold client_get. destruct (get_content ws io 0 [id]) as [([l|], n)| | |] eqn:G; try discriminate. destruct l as [|d2 l]; [discriminate|]. intros X. inversion X; subst. destruct (get_content_ok _ _ _ _ _ _ G) as (_ & A & _). exact (A 0%nat id d eq_refl eq_refl).
Qed.
