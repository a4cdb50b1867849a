(** C61: fetching chunks (GetContent) from the workstation, up to the reader of a file. *)
From Verif Require Import Base ListX Str ModelChunkMap SpecChunkMap SpecContent ModelProvider SpecProvider PropProvider ModelContent ProofContent.
From Coq Require Import Lia.
Local Open Scope N_scope.

(** A successful call returns one item per id, in order; the item is what the workstation has
    for the id at the time (zero-filled if the file has become shorter). The sizes reported
    are those of the items. *)
Theorem C61_answers : forall ws io ids l n, get_content ws io 0 ids = Ok (Some l, n) ->
  length l = length ids /\ (forall k id d, nth_error ids k = Some id -> nth_error l k = Some d -> answers (ws k) id d) /\
  flat_map (fun x => match x with NSent s => [s] | _ => [] end) n = map (fun d => N.of_nat (length d)) l.
Proof. intros ws io ids l n H. exact (get_content_ok ws io ids 0%nat l n H). Qed.
(** It fails only if a chunk cannot be read; the chunks before that one were read and reported. *)
Theorem C61_failure : forall ws io ids n, get_content ws io 0 ids = Ok (None, n) ->
  exists ids1 id ids2 l, ids = ids1 ++ id :: ids2 /\ get_content ws io 0 ids1 = Ok (Some l, n) /\
    forall d, ~ (io (length ids1) = false /\ answers (ws (length ids1)) id d).
Proof. intros ws io ids n H. exact (get_content_fail ws io ids 0%nat n H). Qed.
(** While the indexed files do not change, GetContent returns the chunks with these ids or
    an error; a request for one or for many chunks gives the client the same data. *)
Theorem C61_authentic : forall truth ws io ids, (forall i, unchanged truth (ws i)) ->
  (exists r, client_get_list ws io ids = Ok r) /\ (forall id, exists r, client_get ws io id = Ok r) /\
  (forall l, client_get_list ws io ids = Ok (Some l) -> Forall2 (fun id d => truth id = Some d) ids l) /\
  (forall id d, client_get ws io id = Ok (Some d) -> truth id = Some d).
Proof.
  intros truth ws io ids U. split; [|split; [|split]].
  - unfold client_get_list. destruct ids; [eauto|]. destruct (get_content_defined truth ws io (c :: ids) U 0) as (l & n & G). rewrite G. eauto.
  - intros id. unfold client_get. destruct (get_content_defined truth ws io [id] U 0) as (l & n & G). rewrite G. destruct l as [l|]; [|eauto]. destruct (get_content_ok _ _ _ _ _ _ G) as (L & _). destruct l; [discriminate|]. eauto.
  - intros l H. assert (F : exists n, get_content ws io 0 ids = Ok (Some l, n)).
    { unfold client_get_list in H. destruct ids; [inversion H; subst; exists []; reflexivity|]. destruct (get_content ws io 0 (c :: ids)) as [(l2, n)| | |] eqn:G; try discriminate. inversion H; subst. eauto. }
    destruct F as (n & G). destruct (get_content_ok _ _ _ _ _ _ G) as (L & A & _). assert (A2 : forall k id d, nth_error ids k = Some id -> nth_error l k = Some d -> truth id = Some d) by (intros k id d H1 H2; exact (unchanged_answers _ _ _ _ (U _) (A k id d H1 H2))).
    clear - L A2. revert l L A2. induction ids as [|id ids IH]; intros [|d l] L A2; try discriminate; constructor; [exact (A2 0%nat id d eq_refl eq_refl)|]. apply IH; [now inversion L|]. intros k. exact (A2 (S k)).
  - intros id d H. exact (unchanged_answers _ _ _ _ (U _) (client_get_answers _ _ _ _ H)).
Qed.
(** End to end: reading through the cache (DataProvider with GrpcReader, C24) then gives the
    bytes of the chunks, whatever happens to cache operations, connections and other threads;
    a list request is answered by data a single request could have returned. *)
Theorem C61_end_to_end : forall truth (env : list N -> cache -> cache -> Prop) faults has_writer ts (c : cache) s ts' (c' : cache),
  preserves env (sound truth) -> sound truth c -> Forall (fun t => t_done t = false /\ t_data t = []) ts ->
  provider_get_list env faults has_writer [grpc_reader (unchanged truth)] ts c (s, ts') c' ->
  (forall t, In t ts' -> t_done t = true -> t_size t <> 0%nat -> delivered truth t) /\ sound truth c'.
Proof.
  intros truth env faults hw ts c s ts' c' He Hc Init H. refine (proj2 (C24_list_bytes truth env faults hw _ ts c s ts' c' He _ Hc Init H)).
  constructor; [|constructor]. intros id b (ws & io & U & F). destruct (client_get ws io id) as [[d|]| | |] eqn:G; try contradiction.
  - inversion F; subst. exists d. split; [exact (unchanged_answers _ _ _ _ (U _) (client_get_answers _ _ _ _ G))|]. exists []. now rewrite app_nil_r.
  - destruct F; discriminate.
Qed.
Theorem C61_list_is_singles : forall (P : world -> Prop) ws io ids l, (forall i, P (ws i)) -> client_get_list ws io ids = Ok (Some l) ->
  Forall2 (fun id d => r_fetch (grpc_reader P) id (FOk d)) ids l.
Proof.
  intros P ws io ids l HP H. unfold client_get_list in H. destruct ids; [inversion H; constructor|]. destruct (get_content ws io 0 (c :: ids)) as [(l2, n)| | |] eqn:G; try discriminate. inversion H; subst. exact (get_content_fetches P ws io _ HP _ _ _ G).
Qed.

(** ** A changed file *)
(** File [p] was indexed when it had the content [a] (one chunk, with id [id]); now it contains [b]. *)
Definition stale (id : cid) (p : path) (a b : bytes) : world :=
  mkworld (fcrun [OInit p (N.of_nat (length a)) [(id, 0)]; OFlush (fun l => l)]) (fun q => if list_eq_dec N.eq_dec q p then Some b else None) (fun _ => None).
Lemma stale_find id p a b : N.of_nat (length a) < 2 ^ 32 -> find_chunk (w_map (stale id p a b)) id = Ok (Some (p, 0, N.of_nat (length a))).
Proof.
  intros L. assert (E : w_map (stale id p a b) = mkfcmap [] [(p, mkcfile (N.of_nat (length a)) [(id, 0)])] [(id, (p, 0))] 1) by reflexivity. rewrite E.
  unfold find_chunk. cbn [fm_index fm_files ffind]. rewrite !seqb_refl. cbn [c_chunks N.to_nat nth_error length c_size]. change ((0 + 1) mod 2 ^ 32 =? N.of_nat 1) with true. cbv iota.
  change (2 ^ 32) with 4294967296 in *. change (2 ^ 64) with 18446744073709551616. do 3 f_equal. rewrite N.sub_0_r. replace (N.of_nat (length a) + 18446744073709551616) with (N.of_nat (length a) + 1 * 18446744073709551616) by lia. rewrite N.mod_add by lia. rewrite (N.mod_small _ 18446744073709551616) by lia. now apply N.mod_small.
Qed.
Definition calm : list N -> cache -> cache -> Prop := fun _ c c' => c' = c.

(** Nothing checks that the data belongs to the id. If a file has changed since it was indexed
    and is read before the manifest is updated, the caller gets other bytes than those of the
    chunk (zeros if the file has become shorter), with an OK status; they are cached under the
    chunk's id, and every later read of the chunk gets them from the cache, whatever readers
    there are (in this or a later session). *)
Theorem C61_verified_refuted : forall id p a b, a <> [] -> N.of_nat (length a) < 2 ^ 32 ->
  let w := stale id p a b in let d := padded b 0 (length a) in
  let request := [mktask id 0 (length a) [] [] false] in
  client_get (fun _ => w) (fun _ => false) id = Ok (Some d) /\
  exists c', provider_get_list calm false true [grpc_reader (eq w)] request (fun _ => None) (SOk, [mktask id 0 (length a) d d true]) c' /\
    c' id = Some d /\
    forall readers s ts c2, provider_get_list calm false true readers request c' (s, ts) c2 -> s = SOk /\ map t_out ts = [d].
Proof.
  intros id p a b NE L w d request.
  assert (La : (length a =? 0)%nat = false) by (apply Nat.eqb_neq; destruct a; [congruence|discriminate]).
  assert (Ld : length d = length a) by apply padded_length.
  assert (R : read_from_file w false p 0 (N.of_nat (length a)) = Some d).
  { unfold read_from_file. rewrite repeat_length, Nat2N.id. unfold read_file. rewrite La. unfold w, stale, w_files. destruct (list_eq_dec N.eq_dec p p) as [_|]; [|congruence]. reflexivity. }
  assert (G : client_get (fun _ => w) (fun _ => false) id = Ok (Some d)).
  { unfold client_get. cbn [get_content]. unfold w at 1. rewrite stale_find by exact L. cbv beta iota. rewrite R. reflexivity. }
  assert (Rng : firstn (length a) (skipn 0 d) = d) by (cbn [skipn]; rewrite <- Ld; apply firstn_all).
  split; [exact G|]. exists (cset (fun _ => None) id (Some d)). split; [|split].
  - unfold provider_get_list, get_from_writer, request. cbn [negb orb read_done forallb t_size t_done andb]. rewrite La. cbn [orb].
    exists [mktask id 0 (length a) [] [] false], (fun _ => None). split.
    { cbn [gfw_loop t_done t_size]. rewrite La. exists FNotFound, (fun _ => None). split; [split; [reflexivity|right; right; reflexivity]|]. cbn. split; reflexivity. }
    cbn [read_done forallb t_size t_done andb]. rewrite La. cbn [orb].
    exists [mktask id 0 (length a) [] [] false], (fun _ => None). split.
    { cbn [read_done forallb t_size t_done andb]. rewrite ?La. cbn [orb andb gfw_loop t_done t_size]. rewrite ?La. exists FNotFound, (fun _ => None). split; [split; [reflexivity|right; right; reflexivity]|]. cbn. split; reflexivity. }
    cbn [read_done forallb t_size t_done andb]. rewrite La. cbn [orb].
    exists (SOk, [mktask id 0 (length a) d d true]), (fun _ => None). split.
    { cbn [read_loop]. exists (SOk, [mktask id 0 (length a) d d true]), (fun _ => None). split; [|split; reflexivity].
      unfold reader_list. cbn [r_kind grpc_reader]. exists (Some [d]), (fun _ => None). split.
      - split; [|reflexivity]. cbn. constructor; [|constructor]. exists (fun _ => w), (fun _ => false). split; [reflexivity|]. rewrite G. reflexivity.
      - cbn [length undone_ids filter t_done negb map Nat.eqb]. cbn [grpc_copy t_done t_off t_size set_chunk t_data t_id t_out]. cbn [Nat.add]. rewrite Ld, Nat.ltb_irrefl. cbn [t_off t_size set_out set_chunk set_done t_id t_out t_data t_done]. rewrite Rng. split; reflexivity. }
    cbn [put_loop t_done negb orb t_data].
    assert (Nd : match d with [] => true | _ => false end = false) by (destruct d; [destruct a; [congruence|discriminate]|reflexivity]). rewrite Nd. cbn [t_id t_data].
    exists tt, (cset (fun _ => None) id (Some d)). split; [|split; reflexivity]. exists tt, (cset (fun _ => None) id (Some d)). split; [|split; reflexivity]. exists (fun _ => None). split; [reflexivity|left; reflexivity].
  - unfold cset. destruct (list_eq_dec N.eq_dec id id); congruence.
  - intros readers s ts c2 H. unfold provider_get_list, get_from_writer, request in H. cbn [negb orb read_done forallb t_size t_done andb] in H. rewrite La in H. cbn [orb andb] in H.
    destruct H as (ts1 & c1 & H1 & H2). cbn [gfw_loop t_done t_size] in H1. rewrite La in H1. destruct H1 as (f & c3 & (Ec & Hf) & H1). unfold calm in Ec. subst c3. destruct Hf as [(_ & X)|[(_ & X)|Hf]]; [discriminate|rewrite X in La; discriminate|].
    assert (Cd : cset (fun _ => None) id (Some d) id = Some d) by (unfold cset; destruct (list_eq_dec N.eq_dec id id); congruence).
    cbn [t_id t_off t_size] in Hf. rewrite Cd, Rng in Hf. subst f. rewrite Ld, Nat.eqb_refl in H1. cbn [set_done set_out t_id t_off t_size t_out t_data t_done app read_done forallb] in H1. rewrite orb_true_r in H1. cbn [andb] in H1. destruct H1 as (-> & ->).
    cbn [read_done forallb set_done set_out t_id t_off t_size t_out t_data t_done andb] in H2. rewrite orb_true_r in H2. cbn [andb] in H2. destruct H2 as (E & _). inversion E; subst. split; reflexivity.
Qed.
(** The file has been truncated: zeros. *)
Theorem C61_truncated_refuted : forall id p a, a <> [] -> N.of_nat (length a) < 2 ^ 32 ->
  client_get (fun _ => stale id p a []) (fun _ => false) id = Ok (Some (repeat 0 (length a))).
Proof.
  intros id p a NE L. rewrite (proj1 (C61_verified_refuted id p a [] NE L)). unfold padded. rewrite skipn_nil, firstn_nil. cbn [length app]. now rewrite Nat.sub_0_r.
Qed.

(** Example: two chunks of a file and a manifest chunk. *)
Definition ex_world : world :=
  mkworld (fcrun [OInit [7] 5 [([1], 0); ([2], 3)]; OFlush (fun l => l)]) (fun q => if list_eq_dec N.eq_dec q [7] then Some [10; 11; 12; 13; 14] else None)
          (fun id => if list_eq_dec N.eq_dec id [9] then Some [20; 21] else None).
Definition ex_truth (id : cid) : option bytes :=
  if list_eq_dec N.eq_dec id [1] then Some [10; 11; 12] else if list_eq_dec N.eq_dec id [2] then Some [13; 14] else if list_eq_dec N.eq_dec id [9] then Some [20; 21] else None.
Example C61_example : unchanged ex_truth ex_world /\
  get_content (fun _ => ex_world) (fun _ => false) 0 [[2]; [9]; [1]] = Ok (Some [[13; 14]; [20; 21]; [10; 11; 12]], [NStreamed [2]; NSent 2; NSent 2; NStreamed [1]; NSent 3]).
Proof.
  split; [|vm_compute; reflexivity].
  assert (D : forall p f, described_by [OInit [7] 5 [([1], 0); ([2], 3)]] p = Some f -> p = [7] /\ f = mkcfile 5 [([1], 0); ([2], 3)]).
  { intros p f H. unfold described_by in H. cbn in H. unfold set in H. destruct (list_eq_dec N.eq_dec p [7]) as [-> |]; [|discriminate]. inversion H. auto. }
  exists [OInit [7] 5 [([1], 0); ([2], 3)]], (fun l => l), []. split; [constructor; [exact Logic.I|constructor]|]. split; [intros; reflexivity|]. split; [constructor|]. split; [reflexivity|]. split; [|split; [|split]].
  - intros p f H. destruct (D p f H) as (_ & ->). vm_compute. reflexivity.
  - intros p f id off e H (n & Hn & He). destruct (D p f H) as (-> & ->). destruct n as [|[|n]]; cbn in Hn.
    + inversion Hn; subst. cbn. split; [split; [apply N.le_0_l|reflexivity]|]. split; [reflexivity|]. intros c Hc. inversion Hc; subst. split; [vm_compute; discriminate|reflexivity].
    + inversion Hn; subst. cbn. split; [split; [vm_compute; discriminate|reflexivity]|]. split; [reflexivity|]. intros c Hc. inversion Hc; subst. split; [vm_compute; discriminate|reflexivity].
    + destruct n; discriminate.
  - intros p f H. destruct (D p f H) as (-> & _). cbn. discriminate.
  - intros id d H. cbn in H. destruct (list_eq_dec N.eq_dec id [9]) as [-> |]; [|discriminate]. inversion H; subst. reflexivity.
Qed.
