(** C33, C34: the chunk map (manifest/file_chunk_map.cc) and the pending assets
    queue (manifest/pending_assets_queue.cc), for every history of calls. *)
From Verif Require Import Base ListX Str ModelChunkMap SpecChunkMap ProofChunkMap.
Local Open Scope N_scope.

(** After any calls, a flush, and further unflushed calls, looking up [id]
    - never misbehaves,
    - fails iff no file described by the calls before the flush contains it, and
    - otherwise returns a file described by those calls and the place where the
      chunk lies in it;
    calls made after the flush have no influence.  (Files below 2^32 chunks.) *)
Theorem C33_lookup : forall ops order later id,
  any_order ops -> (forall l, Permutation (order l) l) -> no_flush later ->
  (forall p f, described_by ops p = Some f -> N.of_nat (length (c_chunks f)) < 2 ^ 32) ->
  let m := fcrun (ops ++ [OFlush order] ++ later) in
  (find_chunk m id = Ok None /\
     forall p f, described_by ops p = Some f -> ~ In id (map fst (c_chunks f))) \/
  (exists p f off end_, find_chunk m id = Ok (Some (p, off, (end_ + 2 ^ 64 - off) mod 2 ^ 64 mod 2 ^ 32)) /\
     described_by ops p = Some f /\ lies_at f id off end_).
Proof.
  intros ops order later id AO P NF S m. unfold m, fcrun. rewrite fold_left_app. cbn [app fold_left fcstep].
  destruct (run_MInv ops AO _ _ _ init_MInv) as (fl & pe & I & E). cbn [app] in E.
  pose proof (flush_MInv _ _ _ order I P) as J. set (m0 := flush order (fold_left fcstep ops fcmap_init)) in *.
  destruct (no_flush_keep later NF m0) as (K1 & K2 & _).
  assert (G : find_chunk (fold_left fcstep later m0) id = find_chunk m0 id) by (unfold find_chunk; now rewrite K1, K2).
  rewrite G. destruct (lookup_spec m0 (fl ++ pe) [] J) with (id := id) as [(A & B)|(p & f & off & n & A & B & C)].
  - apply Forall_forall. intros [p f] Hin. cbn [snd]. apply (S p). destruct J as [_ J2 J3 _ _].
    rewrite <- E. rewrite <- J3. now apply In_ffind.
  - left. split; auto. rewrite <- E. exact B.
  - right. eexists p, f, off, _. split; [exact A|]. rewrite <- E. split; [exact B|]. exists n. auto.
Qed.

(** In a file whose chunk list is sound (offsets increase and stay within the
    file, chunks below 4 GB) the returned size is the distance to the end. *)
Theorem C33_size : forall f id off end_,
  lies_at f id off end_ -> off <= end_ < 2 ^ 64 -> end_ - off < 2 ^ 32 ->
  (end_ + 2 ^ 64 - off) mod 2 ^ 64 mod 2 ^ 32 = end_ - off.
Proof.
  intros f id off e _ H L. change (2 ^ 64) with 18446744073709551616 in *. change (2 ^ 32) with 4294967296 in *.
  replace (e + 18446744073709551616 - off) with (e - off + 1 * 18446744073709551616) by lia.
  rewrite N.mod_add by lia. rewrite (N.mod_small (e - off) 18446744073709551616) by lia. now apply N.mod_small.
Qed.

(** Before the first flush nothing is found. *)
Theorem C33_invisible_before_flush : forall ops id, no_flush ops -> find_chunk (fcrun ops) id = Ok None.
Proof.
  intros ops id H. unfold fcrun. destruct (no_flush_keep ops H fcmap_init) as (K1 & K2 & _).
  unfold find_chunk. rewrite K2. reflexivity.
Qed.

(** The chunk counter is exact and never negative, so the asserts in
    FlushUpdates never fire. *)
Theorem C33_total_exact : forall ops,
  any_order ops ->
  fm_total (fcrun ops) = fold_right (fun x z => (Z.of_nat (length (c_chunks (snd x))) + z)%Z) 0%Z (fm_files (fcrun ops)) /\
  (0 <= fm_total (fcrun ops))%Z /\ NoDup (map fst (fm_files (fcrun ops))).
Proof.
  intros ops AO. destruct (run_MInv ops AO _ _ _ init_MInv) as (fl & pe & [A B C D E] & _).
  fold (fcrun ops) in *. split; [exact D|]. split; [|exact B]. rewrite D.
  generalize (fm_files (fcrun ops)). induction l as [|x l IH]; cbn [sum_chunks fold_right]; [lia|].
  change (fold_right _ 0%Z l) with (sum_chunks l). unfold clen. lia.
Qed.

(** Example: two files sharing chunk [1], one of them replaced before the flush. *)
Example C33_example :
  let ops := [OInit [97] 10 [([1], 0); ([2], 4)]; OInit [98] 3 []; OAppend [98] [([1], 0); ([3], 1)] 0; ORemove [97]] in
  let m := fcrun (ops ++ [OFlush (@rev _)] ++ [OClear]) in
  find_chunk m [1] = Ok (Some ([98], 0, 1)) /\ find_chunk m [3] = Ok (Some ([98], 1, 2)) /\ find_chunk m [2] = Ok None.
Proof. vm_compute. auto. Qed.

(** C34.  For every history the queue behaves like two FIFO queues, the urgent
    one (assets with a deadline) before the normal one: Add appends to the queue
    of the class, Dequeue returns the oldest acceptable asset of the first
    class that has one, Prioritize moves assets to the end of the urgent queue. *)
Theorem C34_two_fifo_queues : forall mpt ops,
  finite_requests ops ->
  exists t, spec_run mpt (mktwo [] []) ops t (snd (qrun mpt [] ops)) /\
    fst (qrun mpt [] ops) = urgent t ++ normal t /\
    Forall (fun a => pa_deadline a <> None) (urgent t) /\ Forall (fun a => pa_deadline a = None) (normal t).
Proof.
  intros mpt ops H. assert (R : rep [] (mktwo [] [])) by (split; [reflexivity|split; constructor]).
  destruct (qrun_rep mpt ops H [] (mktwo [] []) R) as (t & A & B). exists t. split; [exact A|exact B].
Qed.

(** Nothing is lost, duplicated or invented: the assets added are exactly those
    dequeued plus those still queued. *)
Theorem C34_nothing_lost : forall mpt ops,
  finite_requests ops ->
  Permutation (map ident (added ops)) (map ident (returned (snd (qrun mpt [] ops)) ++ fst (qrun mpt [] ops))).
Proof.
  intros mpt ops H. destruct (C34_two_fifo_queues mpt ops H) as (t & A & B & _). apply spec_run_perm in A.
  cbn in A. rewrite B. exact A.
Qed.

(** Dequeue without a filter fails only on an empty queue. *)
Theorem C34_dequeue_total : forall q, queue_dequeue None q = None <-> q = [].
Proof. intros [|x q]; cbn; split; congruence. Qed.

(** The deadline returned by Prioritize is the earliest request's time plus the
    minimum processing time. *)
Theorem C34_flush_deadline : forall mpt reqs q,
  Forall (fun r => fst r <> None) reqs -> reqs <> [] ->
  exists received, fst (queue_prioritize mpt reqs q) = Some (received + mpt)%Z /\
    In (Some received) (map fst reqs) /\ forall r, In (Some r) (map fst reqs) -> (received <= r)%Z.
Proof.
  intros mpt reqs q F N. unfold queue_prioritize. cbn [fst].
  assert (G : forall reqs m, Forall (fun r : prio_request => fst r <> None) reqs ->
     let m' := min_received reqs m in
     (m' = m \/ In m' (map fst reqs)) /\ (forall x, m = Some x -> exists y, m' = Some y /\ (y <= x)%Z) /\
     (forall x, In (Some x) (map fst reqs) -> exists y, m' = Some y /\ (y <= x)%Z)).
  { clear. induction reqs as [|[[r|] k] reqs IH]; intros m F; inversion F as [|? ? F1 F2]; subst; cbn [map fst].
    - cbn. split; auto. split; [|tauto]. intros x E. exists x. split; auto. lia.
    - cbn zeta. change (min_received ((Some r, k) :: reqs) m) with (min_received reqs (if time_ltb (Some r) m then Some r else m)).
      specialize (IH (if time_ltb (Some r) m then Some r else m) F2). cbn zeta in IH. destruct IH as (A & B & C).
      set (m' := min_received reqs _) in *.
      assert (R : exists y, m' = Some y /\ (y <= r)%Z).
      { destruct m as [x|]; cbn [time_ltb] in B; [|apply (B r eq_refl)].
        destruct (r <? x)%Z eqn:L; [apply (B r eq_refl)|]. destruct (B x eq_refl) as (y & E & ?). exists y. split; auto. lia. }
      split.
      + destruct A as [A|A]; [|right; now right]. destruct (time_ltb (Some r) m); [right; left; auto|auto].
      + split.
        * intros x E. subst m. cbn [time_ltb] in B. destruct (r <? x)%Z eqn:L; [|apply (B x eq_refl)].
          destruct (B r eq_refl) as (y & E & ?). exists y. split; auto. lia.
        * intros x [E|E]; [inversion E; subst; exact R|auto].
    - cbn in F1. congruence. }
  specialize (G reqs None F). cbn zeta in G. destruct G as (A & _ & C).
  destruct reqs as [|[[r|] k] reqs]; [congruence| |inversion F; cbn in *; congruence].
  destruct (C r) as (y & E & _); [now left|]. exists y. unfold queue_prioritize in *. rewrite E in *.
  split; [reflexivity|]. split; [destruct A as [A|A]; [discriminate|exact A]|].
  intros x Hx. destruct (C x Hx) as (y' & E' & L). inversion E'. subst. exact L.
Qed.

(** Example: b is requested and overtakes a, but not the urgent c. *)
Example C34_example :
  let a := mkpasset 1 [] [97] false None in let b := mkpasset 1 [] [98] false None in
  let c := mkpasset 2 [] [99] false (Some 5%Z) in
  snd (qrun 10 [] [QAdd a; QAdd b; QAdd c; QPrioritize [(Some 7%Z, Some ([], [98]))]; QDequeue (Some (fun x => pa_type x =? 1));
                   QDequeue None; QDequeue None; QDequeue None]) =
  [Some (mkpasset 1 [] [98] true (Some 17%Z)); Some c; Some a; None].
Proof. vm_compute. reflexivity. Qed.

Print Assumptions C33_lookup.
Print Assumptions C33_size.
Print Assumptions C33_invisible_before_flush.
Print Assumptions C33_total_exact.
Print Assumptions C34_two_fifo_queues.
Print Assumptions C34_nothing_lost.
Print Assumptions C34_dequeue_total.
Print Assumptions C34_flush_deadline.
