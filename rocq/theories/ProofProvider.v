From Verif Require Import Base ListX Str ModelText ModelChunkMap ModelProvider SpecProvider.
Local Open Scope N_scope.

Ltac minv :=
  repeat match goal with
  | H : mbind _ _ _ _ _ |- _ => let a := fresh "a" in let c1 := fresh "c" in let H1 := fresh "B" in let H2 := fresh "B" in
      destruct H as (a & c1 & H1 & H2); cbv beta in H2
  | H : ret _ _ _ _ |- _ => let E := fresh "E" in destruct H as (E & ->)
  | H : pick _ _ _ _ |- _ => let P := fresh "P" in destruct H as (P & ->)
  | H : (_, _) = (_, _) |- _ => inversion H; clear H; subst
  end; subst.

Lemma range_prefix b t off size : prefix b t -> length (range b off size) = size -> range b off size = range t off size.
Proof.
  intros (c & ->) L. unfold range in *. destruct size as [|size]; [reflexivity|].
  rewrite firstn_length in L. rewrite skipn_app, firstn_app.
  replace (S size - length (skipn off b))%nat with 0%nat by lia. cbn [firstn]. now rewrite app_nil_r.
Qed.

Lemma range_is_prefix b t off size : prefix b t -> prefix (range b off size) (range t off size).
Proof.
  intros (c & ->). unfold range. rewrite skipn_app, firstn_app. eexists. reflexivity.
Qed.

Lemma prefix_range_eq b off size : (if (length b <=? off)%nat then [] else firstn (Nat.min (length b - off) size) (skipn off b)) = range b off size.
Proof.
  unfold range. destruct (Nat.leb_spec (length b) off).
  - rewrite skipn_all2 by lia. now rewrite firstn_nil.
  - destruct (Nat.le_ge_cases (length b - off) size).
    + rewrite Nat.min_l by lia. rewrite !firstn_all2; auto; rewrite skipn_length; lia.
    + now rewrite Nat.min_r by lia.
Qed.

Section Inv.
Context (truth : cid -> option bytes) (good : cid -> bytes -> Prop).
Context (Hgood : forall id b, good id b -> exists t, truth id = Some t /\ prefix b t).
Context (env : list N -> cache -> cache -> Prop) (faults has_writer : bool).
Context (Hfault : faults = true -> forall id b k, good id b -> good id (firstn k b)).
Definition Inv (c : cache) : Prop := forall id b, c id = Some b -> good id b.
Context (Henv : preserves env Inv).
Definition rgood (r : reader) : Prop := forall id b, r_fetch r id (FOk b) -> good id b.

Definition okT (t : task) : Prop :=
  (t_done t = true -> t_size t <> 0%nat -> delivered truth t) /\ (t_data t <> [] -> good (t_id t) (t_data t)).

Lemma good_delivered id b off size data : good id b -> length (range b off size) = size ->
  delivered truth (mktask id off size (range b off size) data true).
Proof.
  intros G L. destruct (Hgood _ _ G) as (t & T & P). exists t. cbn [t_id t_out t_off t_size]. split; auto. split; auto. now apply range_prefix.
Qed.

(** Cache operations keep the cache good. *)
Lemma cset_Inv c id b : Inv c -> good id b -> Inv (cset c id (Some b)).
Proof. intros I G q v. unfold cset. destruct (list_eq_dec N.eq_dec q id) as [->|]; [intros [= <-]; auto|apply I]. Qed.
Lemma cset_none_Inv c id : Inv c -> Inv (cset c id None).
Proof. intros I q v. unfold cset. destruct (list_eq_dec N.eq_dec q id) as [->|]; [discriminate|apply I]. Qed.

Lemma w_get_inv held id off size c r c' : Inv c -> w_get env faults held id off size c r c' ->
  Inv c' /\ forall b, r = FOk b -> (b = [] /\ size = 0%nat) \/ exists e, c' id = Some e /\ good id e /\ b = range e off size.
Proof.
  intros I (E & H). assert (I' : Inv c') by (eapply Henv; eauto). split; auto. intros b ->.
  destruct H as [(H & _)|[(H & Z)|H]]; [discriminate|inversion H; auto|]. destruct (c' id) as [e|] eqn:C; [|discriminate].
  inversion H; subst. right. exists e. split; [reflexivity|]. split; [now apply I'|reflexivity].
Qed.
Lemma w_get_all_inv held id c r c' : Inv c -> w_get_all env faults held id c r c' ->
  Inv c' /\ forall b, r = FOk b -> good id b.
Proof.
  intros I (E & H). assert (I' : Inv c') by (eapply Henv; eauto). split; auto. intros b ->.
  destruct H as [(H & _)|H]; [discriminate|]. destruct (c' id) as [e|] eqn:C; [|discriminate]. inversion H; subst. auto.
Qed.
Lemma w_put_inv held id data c r c' : Inv c -> good id data -> w_put env faults held id data c r c' -> Inv c'.
Proof.
  intros I G (c1 & E & H). assert (I1 : Inv c1) by (eapply Henv; eauto).
  destruct H as [->|(F & [->|(k & ->)])]; auto; apply cset_Inv; auto.
Qed.
Lemma w_remove_inv held id c r c' : Inv c -> w_remove env faults held id c r c' -> Inv c'.
Proof.
  intros I (c1 & E & H). assert (I1 : Inv c1) by (eapply Henv; eauto). destruct H as [->|(F & ->)]; auto. now apply cset_none_Inv.
Qed.

(** Readers. *)
Definition step_rel (r : reader) (t t' : task) : Prop :=
  same_request t t' /\ (t_done t = true -> t' = t) /\
  (t_done t = false -> t_done t' = true -> r_kind r <> KDefault -> r_fetch r (t_id t) (FOk (t_data t'))).

Lemma step_refl r t : step_rel r t t.
Proof. split; [repeat split|]. split; auto. congruence. Qed.
Lemma steps_refl r ts : Forall2 (step_rel r) ts ts.
Proof. induction ts; constructor; auto using step_refl. Qed.

Lemma short_get (b : bytes) off size : (length b <= off \/ length b < off + size)%nat -> size <> 0%nat -> length (range b off size) <> size.
Proof. unfold range. rewrite firstn_length, skipn_length. lia. Qed.
Lemma long_get (b : bytes) off size : (off + size <= length b)%nat -> length (range b off size) = size.
Proof. unfold range. rewrite firstn_length, skipn_length. lia. Qed.

Definition reader_post (r : reader) (ts : list task) (s : status) (ts' : list task) : Prop :=
  Forall2 (step_rel r) ts ts' /\ (Forall okT ts -> Forall okT ts') /\
  (s = SOk -> Forall2 (fun t t' => delivers r (t_id t) -> t_size t <> 0%nat -> t_done t' = true) ts ts').

Lemma post_cons r t t' ts s ts' : step_rel r t t' -> (okT t -> okT t') -> (delivers r (t_id t) -> t_size t <> 0%nat -> t_done t' = true) ->
  reader_post r ts s ts' -> reader_post r (t :: ts) s (t' :: ts').
Proof.
  intros S O D (A & B & C). split; [now constructor|]. split.
  - intros F. inversion F; subst. constructor; auto.
  - intros E. constructor; auto.
Qed.
Lemma post_stop r t t' ts s : s <> SOk -> step_rel r t t' -> (okT t -> okT t') -> reader_post r (t :: ts) s (t' :: ts).
Proof.
  intros N S O. split; [constructor; auto using steps_refl|]. split; [|contradiction].
  intros F. inversion F; subst. constructor; auto.
Qed.

Lemma okT_copy t b size : good (t_id t) b -> size = t_size t -> length (range b (t_off t) (t_size t)) = t_size t ->
  okT t -> forall data, (data = t_data t \/ data = b) -> okT (mktask (t_id t) (t_off t) (t_size t) (range b (t_off t) (t_size t)) data true).
Proof.
  intros G -> L (O1 & O2) data D. split.
  - intros _ _. now apply good_delivered.
  - cbn [t_id t_data]. intros N. destruct D as [-> | ->]; auto.
Qed.

Lemma default_post r ts : rgood r -> r_kind r = KDefault -> forall c s ts' c', default_list (r_fetch r) ts c (s, ts') c' -> c' = c /\ reader_post r ts s ts'.
Proof.
  intros G K. induction ts as [|t ts IH]; intros c s ts' c' H; cbn [default_list] in H.
  - minv. split; auto. split; [constructor|]. split; [auto|]. intros. constructor.
  - destruct (t_done t || (t_size t =? 0)%nat) eqn:D.
    + minv. destruct a as [s1 r1]. minv. apply IH in B. destruct B as (-> & B). split; auto. apply post_cons; auto using step_refl.
      intros _ N. apply orb_true_iff in D. destruct D as [D|D]; [auto|]. apply Nat.eqb_eq in D. contradiction.
    + apply orb_false_iff in D. destruct D as (D1 & D2). minv. destruct a as [b| |].
      * change (firstn (t_size t) (skipn (t_off t) b)) with (range b (t_off t) (t_size t)) in *.
        destruct (Nat.eqb_spec (length (range b (t_off t) (t_size t))) (t_size t)) as [L|L].
        -- minv. destruct a as [s1 r1]. minv. apply IH in B. destruct B as (-> & B). split; auto. apply post_cons; auto.
           ++ split; [repeat split|]. split; [congruence|]. intros _ _ N. congruence.
           ++ intros O. unfold set_done, set_out. cbn [t_id t_off t_size t_out t_data]. eapply okT_copy; eauto.
        -- minv. split; auto. apply post_stop; [discriminate| |].
           ++ split; [repeat split|]. split; [congruence|]. cbn. congruence.
           ++ intros (O1 & O2). split; cbn [set_out t_done]; [congruence|auto].
      * minv. destruct a as [s1 r1]. minv. apply IH in B. destruct B as (-> & B). split; auto. apply post_cons; auto using step_refl.
        intros De. destruct (De _ P) as (? & ?). discriminate.
      * minv. split; auto. apply post_stop; auto using step_refl. discriminate.
Qed.

Lemma mem_post r ts : rgood r -> forall c s ts' c', mem_list (r_fetch r) ts c (s, ts') c' -> c' = c /\ reader_post r ts s ts'.
Proof.
  intros G. induction ts as [|t ts IH]; intros c s ts' c' H; cbn [mem_list] in H.
  - minv. split; auto. split; [constructor|]. split; [auto|]. intros. constructor.
  - destruct (t_done t) eqn:D.
    + minv. destruct a as [s1 r1]. minv. apply IH in B. destruct B as (-> & B). split; auto. apply post_cons; auto using step_refl.
    + minv. destruct a as [b| |].
      * assert (Chunk : okT t -> okT (set_chunk t b)).
        { intros (O1 & O2). split; cbn [set_chunk t_done t_data t_id]; [congruence|]. intros _. eapply G; eauto. }
        destruct (Nat.eqb_spec (t_size t) 0) as [Z|Z].
        { minv. destruct a as [s1 r1]. minv. apply IH in B. destruct B as (-> & B). split; auto. apply post_cons; auto.
          - split; [repeat split|]. split; [congruence|]. intros _ _ _. exact P.
          - intros O. apply Chunk in O. destruct O as (_ & O2). split; [|exact O2]. cbn. congruence. }
        destruct (Nat.leb_spec (length b) (t_off t)) as [L|L].
        { minv. split; auto. apply post_stop; [discriminate| |auto]. split; [repeat split|]. split; [congruence|]. cbn. congruence. }
        destruct (Nat.ltb_spec (Nat.min (length b - t_off t) (t_size t)) (t_size t)) as [L2|L2].
        { minv. split; auto. apply post_stop; [discriminate| |auto]. split; [repeat split|]. split; [congruence|]. cbn. congruence. }
        minv. destruct a as [s1 r1]. minv. apply IH in B. destruct B as (-> & B). split; auto. apply post_cons; auto.
        -- split; [repeat split|]. split; [congruence|]. intros _ _ _. exact P.
        -- intros O. unfold set_done, set_out, set_chunk. cbn [t_id t_off t_size t_out t_data].
           eapply okT_copy; eauto. apply long_get. lia.
      * minv. destruct a as [s1 r1]. minv. apply IH in B. destruct B as (-> & B). split; auto. apply post_cons; auto using step_refl.
        intros De. destruct (De _ P) as (? & ?). discriminate.
      * minv. split; auto. apply post_stop; auto using step_refl. discriminate.
Qed.

Lemma grpc_copy_post r : rgood r -> forall ts l s ts', Forall2 (fun id b => r_fetch r id (FOk b)) (undone_ids ts) l ->
  grpc_copy ts l = (s, ts') -> reader_post r ts s ts'.
Proof.
  intros G. induction ts as [|t ts IH]; intros l s ts' F H; cbn [grpc_copy] in H.
  - inversion H; subst. split; [constructor|]. split; [auto|]. intros. constructor.
  - unfold undone_ids in F. cbn [filter] in F. destruct (t_done t) eqn:D; cbn [negb] in F.
    + fold (undone_ids ts) in F. destruct (grpc_copy ts l) as [s1 r1] eqn:E. inversion H; subst. apply post_cons; eauto using step_refl.
    + cbn [map] in F. fold (undone_ids ts) in F. inversion F as [|? b ? l' P F']; subst.
      destruct (Nat.ltb_spec (length b) (t_off t + t_size t)) as [L|L].
      * inversion H; subst. apply post_stop; [discriminate| |].
        -- split; [repeat split|]. split; [congruence|]. cbn. congruence.
        -- intros (O1 & O2). split; cbn [set_chunk t_done t_data t_id]; [congruence|]. intros _. eapply G; eauto.
      * destruct (grpc_copy ts l') as [s1 r1] eqn:E. inversion H; subst. apply post_cons; eauto.
        -- split; [repeat split|]. split; [congruence|]. intros _ _ _. exact P.
        -- intros O. unfold set_done, set_out, set_chunk. cbn [t_id t_off t_size t_out t_data]. eapply okT_copy; eauto. apply long_get. lia.
Qed.

Lemma reader_list_post r ts c s ts' c' : rgood r -> reader_list r ts c (s, ts') c' -> c' = c /\ reader_post r ts s ts'.
Proof.
  intros G H. unfold reader_list in H. destruct (r_kind r) eqn:K.
  - now apply default_post.
  - now apply mem_post.
  - unfold grpc_list in H. minv. destruct a as [l|].
    + destruct (Nat.eqb_spec (length l) (length (undone_ids ts))) as [L|L].
      * minv. split; auto. rewrite L, firstn_all in P. rewrite <- L, firstn_all in P. eapply grpc_copy_post; eauto.
      * minv. split; auto. split; [apply steps_refl|]. split; [auto|discriminate].
    + minv. split; auto. split; [apply steps_refl|]. split; [auto|discriminate].
Qed.

(** The loop over the readers. *)
Definition grew (t t' : task) : Prop := same_request t t' /\ (t_done t = true -> t' = t).
Lemma grew_trans a b c : grew a b -> grew b c -> grew a c.
Proof.
  intros ((A1 & A2 & A3) & A4) ((B1 & B2 & B3) & B4). split; [repeat split; congruence|]. intros D. specialize (A4 D). subst b. auto.
Qed.
Lemma grew_refl a : grew a a.
Proof. split; [repeat split|auto]. Qed.

Lemma Forall2_refl_ {A} (R : A -> A -> Prop) l : (forall x, R x x) -> Forall2 R l l.
Proof. intros H. induction l; constructor; auto. Qed.
Lemma Forall2_trans_ {A} (R S T : A -> A -> Prop) : (forall a b c, R a b -> S b c -> T a c) -> forall x y z, Forall2 R x y -> Forall2 S y z -> Forall2 T x z.
Proof.
  intros H x y z F. revert z. induction F; intros z Fz; inversion Fz; subst; constructor; eauto.
Qed.
Lemma Forall2_weaken {A B} (R S : A -> B -> Prop) l l' : (forall a b, R a b -> S a b) -> Forall2 R l l' -> Forall2 S l l'.
Proof. intros H F. induction F; constructor; auto. Qed.

Lemma prefetch_all ts : prefetch_done ts = true -> Forall (fun t => t_done t = true) ts.
Proof. unfold prefetch_done. rewrite forallb_forall, Forall_forall. auto. Qed.

Lemma read_loop_post : forall rs ts c s ts' c', (forall r, In r rs -> rgood r) -> read_loop rs ts c (s, ts') c' ->
  c' = c /\ Forall2 grew ts ts' /\ (Forall okT ts -> Forall okT ts') /\
  (s = SOk -> Forall2 (fun t t' => (exists r, In r rs /\ delivers r (t_id t)) -> t_size t <> 0%nat -> t_done t' = true) ts ts') /\
  Forall2 (fun t t' => t_done t = false -> t_done t' = true -> (forall r, In r rs -> r_kind r <> KDefault) ->
             exists r, In r rs /\ r_fetch r (t_id t) (FOk (t_data t'))) ts ts'.
Proof.
  induction rs as [|r rs IH]; intros ts c s ts' c' G H; cbn [read_loop] in H.
  - minv. split; auto. split; [apply Forall2_refl_, grew_refl|]. split; auto. split.
    + intros _. apply Forall2_refl_. intros t (r & [] & _).
    + apply Forall2_refl_. congruence.
  - minv. destruct a as [s1 ts1]. apply reader_list_post in B; [|apply G; now left]. destruct B as (-> & A & O & D).
    assert (A1 : Forall2 grew ts ts1) by (eapply Forall2_weaken; [|exact A]; intros ? ? (? & ? & ?); split; auto).
    assert (A2 : Forall2 (fun t t' => t_done t = false -> t_done t' = true -> (forall r0, In r0 (r :: rs) -> r_kind r0 <> KDefault) ->
             exists r0, In r0 (r :: rs) /\ r_fetch r0 (t_id t) (FOk (t_data t'))) ts ts1).
    { eapply Forall2_weaken; [|exact A]. intros t t' (_ & _ & F) D1 D2 K. exists r. split; [now left|]. apply F; auto. apply K. now left. }
    destruct s1; [|minv; split; auto; split; auto; split; auto; split; [discriminate|auto]..].
    destruct (prefetch_done ts1) eqn:PD.
    + minv. split; auto. split; auto. split; auto. split; auto. intros _. apply prefetch_all in PD.
      clear - PD A1. induction A1; inversion PD; subst; constructor; auto.
    + apply IH in B0; [|intros; apply G; now right]. destruct B0 as (-> & B1 & B2 & B3 & B4). split; auto.
      split; [eapply Forall2_trans_; [exact grew_trans|exact A1|exact B1]|]. split; [auto|]. split.
      * intros E. specialize (B3 E). specialize (D eq_refl).
        assert (J : Forall2 (fun t t' => t_id t = t_id t' /\ t_size t = t_size t' /\ (delivers r (t_id t) -> t_size t <> 0%nat -> t_done t' = true)) ts ts1).
        { clear - A1 D. induction A1; inversion D; subst; constructor; auto. destruct H as ((? & ? & ?) & _). auto. }
        assert (J2 : Forall2 (fun t t' => grew t t' /\ ((exists r, In r rs /\ delivers r (t_id t)) -> t_size t <> 0%nat -> t_done t' = true)) ts1 ts').
        { clear - B1 B3. induction B1; inversion B3; subst; constructor; auto. }
        eapply Forall2_trans_; [|exact J|exact J2]. intros a b d (J1 & J3 & J4) (K1 & K2) (r0 & [<-|Hr] & De) N.
        -- specialize (J4 De N). destruct K1 as (_ & K1). rewrite (K1 J4). exact J4.
        -- rewrite J1 in De. apply K2; [exists r0; auto|congruence].
      * assert (J2 : Forall2 (fun t t' => grew t t' /\ (t_done t = false -> t_done t' = true -> (forall r0, In r0 rs -> r_kind r0 <> KDefault) ->
             exists r0, In r0 rs /\ r_fetch r0 (t_id t) (FOk (t_data t')))) ts1 ts').
        { clear - B1 B4. induction B1; inversion B4; subst; constructor; auto. }
        assert (J1 : Forall2 (fun t t' => t_id t = t_id t' /\ (t_done t = false -> t_done t' = true -> (forall r0, In r0 (r :: rs) -> r_kind r0 <> KDefault) ->
             exists r0, In r0 (r :: rs) /\ r_fetch r0 (t_id t) (FOk (t_data t')))) ts ts1).
        { clear - A1 A2. induction A1; inversion A2; subst; constructor; auto. destruct H as ((? & ?) & _). auto. }
        eapply Forall2_trans_; [|exact J1|exact J2]. intros a b d (I1 & I2) ((_ & K1) & K2) Da Dd K.
        destruct (t_done b) eqn:Db.
        -- rewrite (K1 eq_refl) in *. auto.
        -- destruct (K2 eq_refl Dd) as (r0 & H1 & H2); [intros; apply K; now right|]. exists r0. split; [now right|]. now rewrite I1.
Qed.

(** GetFromWriter. *)
Lemma Forall2_app_inv_ {A B} (R : A -> B -> Prop) a b l : Forall2 R (a ++ b) l -> exists a' b', l = a' ++ b' /\ Forall2 R a a' /\ Forall2 R b b'.
Proof. intros H. apply Forall2_app_inv_l in H. destruct H as (a' & b' & H1 & H2 & ->). eauto. Qed.

Lemma gfw_inv held lr : forall rest pre c ts' c', Inv c -> Forall okT pre -> Forall okT rest ->
  gfw_loop env faults held lr pre rest c ts' c' ->
  Inv c' /\ Forall okT ts' /\ Forall2 grew (pre ++ rest) ts' .
Proof.
  induction rest as [|t rest IH]; intros pre c ts' c' I Op Or H; cbn [gfw_loop] in H.
  - minv. split; auto. split; auto. rewrite app_nil_r. apply Forall2_refl_, grew_refl.
  - inversion Or as [|? ? Ot Or']; subst.
    assert (Step : forall t1 c1 , Inv c1 -> okT t1 -> grew t t1 -> gfw_loop env faults held lr (pre ++ [t1]) rest c1 ts' c' ->
              Inv c' /\ Forall okT ts' /\ Forall2 grew (pre ++ t :: rest) ts').
    { intros t1 c1 I1 O1 G1 H1. apply IH in H1; auto; [|apply Forall_app; split; auto]. destruct H1 as (A1 & A2 & A3).
      split; auto. split; auto. rewrite <- app_assoc in A3. cbn [app] in A3. eapply Forall2_trans_; [exact grew_trans| |exact A3].
      apply Forall2_app; [apply Forall2_refl_, grew_refl|]. constructor; auto. apply Forall2_refl_, grew_refl. }
    destruct (t_done t) eqn:D; [eapply Step; eauto using grew_refl|].
    set (held' := if lr then [mutex_of (t_id t)] else held) in *. clearbody held'.
    destruct (Nat.eqb_spec (t_size t) 0) as [Z|Z].
    + minv. destruct B as (E & ->). eapply Step; [|  | |exact B0].
      * eapply Henv; eauto.
      * destruct Ot as (O1 & O2). split; [cbn [set_done t_size]; congruence|exact O2].
      * split; [repeat split|congruence].
    + minv. apply w_get_inv in B; auto. destruct B as (I1 & Bg). destruct a as [b| |].
      2-3: eapply Step; eauto using grew_refl.
      destruct (Bg b eq_refl) as [(_ & ?)|(e & C & Ge & ->)]; [contradiction|].
      assert (Short : okT (set_out t (range e (t_off t) (t_size t))) /\ grew t (set_out t (range e (t_off t) (t_size t)))).
      { destruct Ot as (O1 & O2). split; [split; [cbn [set_out t_done]; congruence|exact O2]|split; [repeat split|congruence]]. }
      destruct (Nat.eqb_spec (length (range e (t_off t) (t_size t))) (t_size t)) as [L|L].
      * set (t1 := set_done (set_out t (range e (t_off t) (t_size t))) true) in *.
        assert (O1 : okT t1) by (unfold t1, set_done, set_out; cbn [t_id t_off t_size t_out t_data]; eapply okT_copy; eauto).
        assert (G1 : grew t t1) by (split; [repeat split|congruence]).
        destruct (read_done (pre ++ t1 :: rest)).
        -- minv. split; auto. split; [apply Forall_app; split; auto|]. apply Forall2_app; [apply Forall2_refl_, grew_refl|].
           constructor; auto. apply Forall2_refl_, grew_refl.
        -- eapply Step; [| | |exact B0]; auto.
      * destruct lr.
        -- eapply Step; [| | |exact B0]; tauto.
        -- minv. apply w_remove_inv in B; auto. eapply Step; [| | |exact B1]; tauto.
Qed.

Lemma get_from_writer_inv held lr ts c ts' c' : Inv c -> Forall okT ts -> get_from_writer env faults has_writer held lr ts c ts' c' ->
  Inv c' /\ Forall okT ts' /\ Forall2 grew ts ts'.
Proof.
  intros I O H. unfold get_from_writer in H. destruct (negb has_writer || read_done ts).
  - minv. split; auto. split; auto. apply Forall2_refl_, grew_refl.
  - apply (gfw_inv held lr ts [] c ts' c' I (Forall_nil _) O H).
Qed.

Lemma put_loop_inv held : forall ts c u c', Inv c -> Forall okT ts -> put_loop env faults held ts c u c' -> Inv c'.
Proof.
  induction ts as [|t ts IH]; intros c u c' I O H; cbn [put_loop] in H; [minv; auto|]. inversion O as [|? ? (O1 & O2) O']; subst.
  destruct (negb (t_done t) || match t_data t with [] => true | _ => false end) eqn:D; [eapply IH; eauto|].
  minv. eapply IH; [| |exact B0]; auto. eapply w_put_inv; [exact I| |exact B]. apply O2. apply orb_false_iff in D. destruct D as (_ & D).
  destruct (t_data t); [discriminate|congruence].
Qed.

Lemma get_list_inv readers ts c s ts' c' : (forall r, In r readers -> rgood r) -> Inv c -> Forall okT ts ->
  provider_get_list env faults has_writer readers ts c (s, ts') c' ->
  Inv c' /\ Forall okT ts' /\ Forall2 grew ts ts' /\
  (s = SOk -> Forall2 (fun t t' => (exists r, In r readers /\ delivers r (t_id t)) -> t_size t <> 0%nat -> t_done t' = true) ts ts').
Proof.
  intros G I O H. unfold provider_get_list in H. minv.
  assert (RD : forall ts', Forall2 grew ts ts' -> read_done ts' = true ->
    Forall2 (fun t t' => (exists r, In r readers /\ delivers r (t_id t)) -> t_size t <> 0%nat -> t_done t' = true) ts ts').
  { intros l Fl R. unfold read_done in R. rewrite forallb_forall in R. clear - Fl R. induction Fl; constructor; auto.
    - intros _ N. specialize (R y ltac:(now left)). apply orb_true_iff in R. destruct R as [R|R]; auto. apply Nat.eqb_eq in R.
      destruct H as ((_ & _ & ?) & _). congruence.
    - apply IHFl. intros. apply R. now right. }
  apply get_from_writer_inv in B; auto. destruct B as (I1 & O1 & G1). destruct (read_done a) eqn:R1; [minv; auto|].
  minv. apply get_from_writer_inv in B; auto. destruct B as (I2 & O2 & G2).
  assert (G12 : Forall2 grew ts a0) by (eapply Forall2_trans_; [exact grew_trans|exact G1|exact G2]).
  destruct (read_done a0) eqn:R2; [minv; auto|]. minv. destruct a1 as [s1 ts3].
  apply read_loop_post in B; auto. destruct B as (-> & G3 & O3 & D & _). specialize (O3 O2).
  assert (G123 : Forall2 grew ts ts3) by (eapply Forall2_trans_; [exact grew_trans|exact G12|exact G3]).
  assert (DD : s1 = SOk -> Forall2 (fun t t' => (exists r, In r readers /\ delivers r (t_id t)) -> t_size t <> 0%nat -> t_done t' = true) ts ts3).
  { intros E. specialize (D E). eapply Forall2_trans_; [|exact G12|exact D]. intros x y z ((E1 & _ & E2) & _) Q. now rewrite E1, E2. }
  destruct s1; [|minv; auto..]. destruct has_writer.
  - minv. apply put_loop_inv in B; auto.
  - minv. auto.
Qed.

(** The single chunk functions. *)
Lemma first_reader_inv held : forall rs id c f c', (forall r, In r rs -> rgood r) -> Inv c ->
  first_reader env faults has_writer held rs id c f c' -> Inv c' /\ forall b, f = FOk b -> good id b.
Proof.
  induction rs as [|r rs IH]; intros id c f c' G I H; cbn [first_reader] in H.
  - minv. split; auto. discriminate.
  - minv. destruct a as [b| |].
    + assert (Gb : good id b) by (eapply G; [now left|eauto]). destruct has_writer.
      * minv. split; [eapply w_put_inv; eauto|]. intros ? [= <-]. auto.
      * minv. split; auto. intros ? [= <-]. auto.
    + eapply IH; [|exact I|exact B0]. intros. apply G. now right.
    + minv. split; auto. discriminate.
Qed.

Lemma provider_get_all_inv readers id c f c' : (forall r, In r readers -> rgood r) -> Inv c ->
  provider_get_all env faults has_writer readers id c f c' -> Inv c' /\ forall b, f = FOk b -> good id b.
Proof.
  intros G I H. unfold provider_get_all in H. destruct (negb has_writer); [eapply first_reader_inv; eauto|].
  minv. apply w_get_all_inv in B; auto. destruct B as (I1 & Q1). destruct a as [b| |].
  - minv. split; auto.
  - minv. apply w_get_all_inv in B; auto. destruct B as (I2 & Q2). destruct a as [b| |].
    + minv. split; auto.
    + eapply first_reader_inv; [exact G|exact I2|eassumption].
    + eapply first_reader_inv; [exact G|exact I2|eassumption].
  - eapply first_reader_inv; [exact G|exact I1|eassumption].
Qed.

Lemma provider_get_inv readers id off size c f c' : (forall r, In r readers -> rgood r) -> Inv c ->
  provider_get env faults has_writer readers id off size c f c' ->
  Inv c' /\ forall b, f = FOk b -> (b = [] /\ size = 0%nat) \/ exists e, good id e /\ b = range e off size.
Proof.
  intros G I H. unfold provider_get in H.
  assert (FR : forall c0, Inv c0 ->
     (let* f := first_reader env faults has_writer [mutex_of id] readers id in
      match f with
      | FOk b => ret (FOk (if (length b <=? off)%nat then [] else firstn (Nat.min (length b - off) size) (skipn off b)))
      | _ => ret f
      end) c0 f c' -> Inv c' /\ forall b, f = FOk b -> (b = [] /\ size = 0%nat) \/ exists e, good id e /\ b = range e off size).
  { intros c0 I0 H0. minv. apply first_reader_inv in B; auto. destruct B as (I1 & Q1). destruct a as [b| |]; minv; split; auto; try discriminate.
    intros ? [= <-]. right. exists b. split; auto. apply prefix_range_eq. }
  destruct (negb has_writer); [eapply FR; eauto|].
  minv. apply w_get_inv in B; auto. destruct B as (I1 & Q1). destruct a as [b| |].
  - minv. split; auto. intros ? [= <-]. destruct (Q1 b eq_refl) as [?|(e & _ & ? & ?)]; eauto.
  - minv. apply w_get_inv in B; auto. destruct B as (I2 & Q2). destruct a as [b| |].
    + minv. split; auto. intros ? [= <-]. destruct (Q2 b eq_refl) as [?|(e & _ & ? & ?)]; eauto.
    + eapply FR; [exact I2|eassumption].
    + eapply FR; [exact I2|eassumption].
  - eapply FR; [exact I1|eassumption].
Qed.
End Inv.

(** Truncated or missing entries are fetched again. *)
Section Refetch.
Context (env : list N -> cache -> cache -> Prop) (id : cid).
Context (Hid : forall held c c', env held c c' -> c' id = c id).

Definition shortv (v : option bytes) (t : task) : Prop :=
  match v with None => True | Some b => length (range b (t_off t) (t_size t)) <> t_size t end.
Definition kept (v : option bytes) (t t' : task) : Prop :=
  t_id t = id -> t_size t <> 0%nat -> shortv v t -> t_done t = false -> t_done t' = false.

Lemma kept_refl v t : kept v t t.
Proof. intros _ _ _ D. exact D. Qed.

Lemma gfw_short held lr : forall rest pre c ts' c',
  gfw_loop env false held lr pre rest c ts' c' ->
  (c' id = c id \/ c' id = None) /\ Forall2 (fun t t' => same_request t t' /\ kept (c id) t t') (pre ++ rest) ts'.
Proof.
  assert (RR : forall v t, same_request t t /\ kept v t t) by (intros; split; [repeat split|apply kept_refl]).
  induction rest as [|t rest IH]; intros pre c ts' c' H; cbn [gfw_loop] in H.
  - minv. split; auto. rewrite app_nil_r. apply Forall2_refl_. intros; apply RR.
  - assert (Step : forall t1 c1, (c1 id = c id \/ c1 id = None) -> same_request t t1 -> kept (c id) t t1 ->
              gfw_loop env false held lr (pre ++ [t1]) rest c1 ts' c' ->
              (c' id = c id \/ c' id = None) /\ Forall2 (fun t t' => same_request t t' /\ kept (c id) t t') (pre ++ t :: rest) ts').
    { intros t1 c1 E1 S1 K1 H1. apply IH in H1. destruct H1 as (A1 & A2). split; [destruct A1 as [-> | ->]; auto|].
      rewrite <- app_assoc in A2. cbn [app] in A2.
      assert (A3 : Forall2 (fun t t' => same_request t t' /\ kept (c id) t t') (pre ++ t1 :: rest) ts').
      { eapply Forall2_weaken; [|exact A2]. intros x y (Sx & Kx). split; auto. intros I1 I2 I3 I4. apply Kx; auto.
        destruct E1 as [-> | ->]; [auto|exact I]. }
      eapply (Forall2_trans_ (fun t t' => same_request t t' /\ kept (c id) t t')); [| |exact A3].
      2:{ apply Forall2_app; [apply Forall2_refl_; intros x; apply (RR (c id) x)|]. constructor; [split; assumption|apply Forall2_refl_; intros x; apply (RR (c id) x)]. }
      intros x y z (Sx & Kx) (Sy & Ky). destruct Sx as (X1 & X2 & X3), Sy as (Y1 & Y2 & Y3). split; [repeat split; congruence|].
      intros I1 I2 I3 I4. apply Ky; [congruence|congruence| |apply Kx; auto].
      unfold shortv in *. destruct (c id); auto. now rewrite <- X2, <- X3. }
    destruct (t_done t) eqn:D; [eapply Step; eauto; [repeat split|apply kept_refl]|].
    set (held' := if lr then [mutex_of (t_id t)] else held) in *. clearbody held'.
    destruct (Nat.eqb_spec (t_size t) 0) as [Z|Z].
    + minv. destruct B as (E & ->). eapply Step; [| | |exact B0].
      * left. eapply Hid; eauto.
      * repeat split.
      * intros _ N. contradiction.
    + minv. destruct B as (E & B). pose proof (Hid _ _ _ E) as Ec.
      destruct a as [b| |]; [|eapply Step; [left; exact Ec|repeat split|apply kept_refl|exact B0]..].
      destruct B as [(? & ?)|[(? & ?)|B]]; [discriminate|contradiction|].
      assert (SO : same_request t (set_out t b)) by (repeat split).
      assert (KO : kept (c id) t (set_out t b)) by (intros _ _ _ _; exact D).
      destruct (Nat.eqb_spec (length b) (t_size t)) as [L|L].
      * set (t1 := set_done (set_out t b) true) in *. assert (S1 : same_request t t1) by (repeat split).
        assert (K1 : kept (c id) t t1).
        { intros I1 I2 I3 I4. exfalso. rewrite I1, Ec in B. unfold shortv in I3. destruct (c id) as [e|]; [|discriminate]. inversion B; subst. now apply I3. }
        destruct (read_done (pre ++ t1 :: rest)).
        -- minv. split; [auto|]. apply Forall2_app; [apply Forall2_refl_; intros; apply RR|]. constructor; [auto|apply Forall2_refl_; intros; apply RR].
        -- eapply Step; [| | |exact B0]; auto.
      * destruct lr; [eapply Step; [| | |exact B0]; auto|].
        minv. destruct B1 as (c2 & E2 & [->|(? & _)]); [|discriminate]. eapply Step; [| | |exact B2]; auto.
        unfold cset. destruct (list_eq_dec N.eq_dec id (t_id t)); [auto|]. left. rewrite (Hid _ _ _ E2). exact Ec.
Qed.

Lemma gfw_short' hw held lr ts c ts' c' : get_from_writer env false hw held lr ts c ts' c' ->
  (c' id = c id \/ c' id = None) /\ Forall2 (fun t t' => same_request t t' /\ kept (c id) t t') ts ts'.
Proof.
  intros H. unfold get_from_writer in H. destruct (negb hw || read_done ts).
  - minv. split; auto. apply Forall2_refl_. intros; split; [repeat split|apply kept_refl].
  - apply gfw_short in H. exact H.
Qed.

Lemma put_loop_sets held tr : forall ts c u c',
  (forall t, In t ts -> t_id t = id -> t_done t = true -> t_data t <> [] -> t_data t = tr) ->
  (c id = Some tr \/ exists t, In t ts /\ t_id t = id /\ t_done t = true /\ t_data t <> []) ->
  put_loop env false held ts c u c' -> c' id = Some tr.
Proof.
  induction ts as [|t ts IH]; intros c u c' A E H; cbn [put_loop] in H.
  - minv. destruct E as [E|(t & [] & _)]. exact E.
  - destruct (negb (t_done t) || match t_data t with [] => true | _ => false end) eqn:D.
    + eapply IH; [| |exact H]; [intros; apply A; auto; now right|]. destruct E as [E|(q & [<-|Hq] & Q1 & Q2 & Q3)]; [auto| |right; eauto].
      exfalso. rewrite Q2 in D. cbn [negb orb] in D. destruct (t_data t); [congruence|discriminate].
    + apply orb_false_iff in D. destruct D as (D1 & D2). apply negb_false_iff in D1.
      assert (D3 : t_data t <> []) by (destruct (t_data t); [discriminate|congruence]).
      minv. destruct B as (c1 & E1 & [->|(? & _)]); [|discriminate]. eapply IH; [| |exact B0]; [intros; apply A; auto; now right|].
      unfold cset. destruct (list_eq_dec N.eq_dec id (t_id t)) as [e|e].
      * left. f_equal. apply A; auto. now left.
      * rewrite (Hid _ _ _ E1). destruct E as [E|(q & [<-|Hq] & Q1 & Q2 & Q3)]; [auto|congruence|right; eauto].
Qed.
End Refetch.

Lemma Forall2_In_l {A B} (R : A -> B -> Prop) l l' x : Forall2 R l l' -> In x l -> exists y, In y l' /\ R x y.
Proof.
  induction 1; [intros []|]. intros [<-|I]; [eexists; split; [now left|auto]|]. destruct IHForall2 as (z & ? & ?); auto. exists z. split; auto. now right.
Qed.
Lemma Forall2_In_r {A B} (R : A -> B -> Prop) l l' y : Forall2 R l l' -> In y l' -> exists x, In x l /\ R x y.
Proof.
  induction 1; [intros []|]. intros [<-|I]; [eexists; split; [now left|auto]|]. destruct IHForall2 as (z & ? & ?); auto. exists z. split; auto. now right.
Qed.
Lemma Forall2_and_ {A B} (R S : A -> B -> Prop) l l' : Forall2 R l l' -> Forall2 S l l' -> Forall2 (fun a b => R a b /\ S a b) l l'.
Proof. intros H. induction H; intros G; inversion G; subst; constructor; auto. Qed.

Lemma refetch truth (env : list N -> cache -> cache -> Prop) readers id t ts (c : cache) s ts' (c' : cache) :
  (forall held (c c' : cache), env held c c' -> c' id = c id) ->
  (forall r, In r readers -> reader_exact truth r /\ r_kind r <> KDefault) ->
  Forall (fun t => t_data t = [] /\ t_done t = false) ts ->
  In t ts -> t_id t = id -> t_size t <> 0%nat -> shortv (c id) t -> (exists r, In r readers /\ delivers r id) ->
  truth id <> Some [] ->
  provider_get_list env false true readers ts c (s, ts') c' -> s = SOk -> c' id = truth id.
Proof.
  intros Hid Hr Init It Iid Sz Sh (r0 & Ir0 & De) NE H ->. unfold provider_get_list in H. minv.
  pose proof (gfw_short' env (t_id t) Hid _ _ _ _ _ _ _ B) as (E1 & F1).
  assert (Nd0 : t_done t = false) by (rewrite Forall_forall in Init; now apply Init).
  destruct (Forall2_In_l _ _ _ _ F1 It) as (t1 & I1 & (S1a & S1b & S1c) & K1). specialize (K1 eq_refl Sz Sh Nd0).
  assert (NR : forall l q, In q l -> t_size q <> 0%nat -> t_done q = false -> read_done l = false).
  { intros l q Iq Zq Dq. unfold read_done. apply not_true_is_false. rewrite forallb_forall. intros C. specialize (C q Iq). rewrite Dq, orb_false_r in C.
    apply Nat.eqb_eq in C. contradiction. }
  rewrite (NR a t1 I1) in B0 by congruence. minv.
  pose proof (gfw_short' env (t_id t) Hid _ _ _ _ _ _ _ B1) as (E2 & F2).
  destruct (Forall2_In_l _ _ _ _ F2 I1) as (t2 & I2 & (S2a & S2b & S2c) & K2).
  assert (Sh1 : shortv (c0 (t_id t)) t1).
  { unfold shortv in *. destruct E1 as [-> | ->]; auto. destruct (c (t_id t)); auto. now rewrite <- S1b, <- S1c. }
  specialize (K2 ltac:(congruence) ltac:(congruence) Sh1 K1).
  rewrite (NR a0 t2 I2) in B2 by congruence. minv. destruct a1 as [s1 ts3].
  set (good := fun (i : cid) b => truth i = Some b).
  assert (Hg : forall i b, good i b -> exists q, truth i = Some q /\ prefix b q).
  { intros i b Gb. exists b. split; auto. exists []. now rewrite app_nil_r. }
  apply (read_loop_post truth good Hg false ltac:(discriminate)) in B0; [|intros r Ir i b; now apply Hr].
  destruct B0 as (-> & G3 & _ & D3 & K3). destruct s1; [|minv; discriminate..]. specialize (D3 eq_refl).
  minv.
  assert (DataNil : Forall (fun q => t_data q = []) a0).
  { assert (GN : forall hw held lr l c l' c', get_from_writer env false hw held lr l c l' c' -> Forall (fun q => t_data q = []) l -> Forall (fun q => t_data q = []) l').
    { clear. intros hw held lr l c l' c' H. unfold get_from_writer in H. destruct (negb hw || read_done l); [minv; auto|].
      intros Fl. assert (Fn : Forall (fun q => t_data q = []) (@nil task)) by constructor. revert H Fl Fn. generalize (@nil task) as pre. revert c.
      induction l as [|q l IH]; intros c pre H Fl Fp; cbn [gfw_loop] in H; [minv; auto|]. inversion Fl as [|? ? Q Fl']; subst.
      assert (App : forall x, t_data x = [] -> Forall (fun q => t_data q = []) (pre ++ [x])) by (intros; apply Forall_app; split; auto).
      destruct (t_done q); [eapply IH; eauto|]. destruct (Nat.eqb (t_size q) 0).
      - minv. eapply IH; [exact B0|auto|]. now apply App.
      - minv. destruct a as [b| |].
        + destruct (Nat.eqb (length b) (t_size q)).
          * destruct (read_done (pre ++ set_done (set_out q b) true :: l)).
            -- minv. apply Forall_app. split; auto.
            -- eapply IH; [exact B0|auto|]. now apply App.
          * destruct lr; [eapply IH; [exact B0|auto|]; now apply App|]. minv. eapply IH; [eassumption|auto|]. now apply App.
        + eapply IH; [exact B0|auto|]. now apply App.
        + eapply IH; [exact B0|auto|]. now apply App. }
    eapply GN; [exact B1|]. eapply GN; [exact B|]. eapply Forall_impl; [|exact Init]. intros ? (? & _). auto. }
  destruct (Forall2_In_l _ _ _ _ (Forall2_and_ _ _ _ _ (Forall2_and_ _ _ _ _ G3 D3) K3) I2) as (t3 & I3 & ((S3 & _) & Dn) & Kn).
  assert (Eid : t_id t2 = t_id t) by congruence.
  assert (T3 : t_done t3 = true) by (apply Dn; [exists r0; split; auto; rewrite Eid; auto|congruence]).
  destruct (Kn K2 T3) as (r1 & Ir1 & Fe); [intros r Ir; now apply Hr|]. rewrite Eid in Fe. apply Hr in Ir1. destruct Ir1 as (Ex & _). apply Ex in Fe.
  rewrite Fe. destruct S3 as (S3 & _).
  eapply (put_loop_sets env (t_id t) Hid _ (t_data t3)); [| |exact B0].
  - intros q Iq Qi Qd Qn. destruct (Forall2_In_r _ _ _ _ (Forall2_and_ _ _ _ _ G3 K3) Iq) as (p & Ip & (Gp1 & Gp2) & Kp).
    destruct (t_done p) eqn:Dp.
    + exfalso. rewrite (Gp2 eq_refl) in Qn. rewrite Forall_forall in DataNil. apply Qn. now apply DataNil.
    + destruct (Kp eq_refl Qd) as (r2 & Ir2 & Fe2); [intros r Ir; now apply Hr|]. apply Hr in Ir2. destruct Ir2 as (Ex2 & _). apply Ex2 in Fe2.
      destruct Gp1 as (Gp1 & _). rewrite Gp1, Qi in Fe2. congruence.
  - right. exists t3. split; auto. split; [congruence|]. split; auto. intros C. rewrite C in Fe. contradiction.
Qed.

(** Chunks that were not asked for stay as they are. *)
Ltac useIH IH := match goal with H : _ |- _ => apply IH in H; destruct H as (-> & ?) end.

Section Frame.
Context (env : list N -> cache -> cache -> Prop) (faults : bool) (q : cid).
Context (Hq : forall held c c', env held c c' -> c' q = c q).

Lemma cset_other (c : cache) id v : q <> id -> cset c id v q = c q.
Proof. intros N. unfold cset. destruct (list_eq_dec N.eq_dec q id); [contradiction|reflexivity]. Qed.

Lemma gfw_frame held lr : forall rest pre c ts' c', Forall (fun t => t_id t <> q) rest ->
  gfw_loop env faults held lr pre rest c ts' c' -> c' q = c q.
Proof.
  induction rest as [|t rest IH]; intros pre c ts' c' F H; cbn [gfw_loop] in H; [minv; auto|]. inversion F as [|? ? Nt F']; subst.
  destruct (t_done t); [eapply IH; eauto|]. set (held' := if lr then [mutex_of (t_id t)] else held) in *. clearbody held'.
  destruct (t_size t =? 0)%nat.
  - minv. destruct B as (E & _). apply IH in B0; auto. rewrite B0. eauto.
  - minv. destruct B as (E & _). apply Hq in E. rewrite <- E. destruct a as [b| |]; [|eapply IH; eauto..].
    destruct (length b =? t_size t)%nat.
    + destruct (read_done (pre ++ set_done (set_out t b) true :: rest)); [minv; auto|eapply IH; eauto].
    + destruct lr; [eapply IH; eauto|]. minv. destruct B as (c2 & E2 & R). apply Hq in E2. rewrite <- E2. apply IH in B1; auto. rewrite B1.
      destruct R as [->|(_ & ->)]; auto. apply cset_other. congruence.
Qed.

Lemma put_frame held id data c u c' : q <> id -> w_put env faults held id data c u c' -> c' q = c q.
Proof.
  intros N (c1 & E & H). apply Hq in E. rewrite <- E. destruct H as [->|(_ & [->|(k & ->)])]; auto; now apply cset_other.
Qed.

Lemma put_loop_frame held : forall ts c u c', Forall (fun t => t_id t <> q) ts -> put_loop env faults held ts c u c' -> c' q = c q.
Proof.
  induction ts as [|t ts IH]; intros c u c' F H; cbn [put_loop] in H; [minv; auto|]. inversion F; subst.
  destruct (negb (t_done t) || _); [eapply IH; eauto|]. minv. apply put_frame in B; [|congruence]. rewrite <- B. eapply IH; eauto.
Qed.
End Frame.

Lemma frame_list (env : list N -> cache -> cache -> Prop) faults hw readers ts (c : cache) s ts' (c' : cache) q :
  (forall held (c c' : cache), env held c c' -> c' q = c q) -> ~ In q (map t_id ts) ->
  provider_get_list env faults hw readers ts c (s, ts') c' -> c' q = c q.
Proof.
  intros Hq N H.
  assert (ids : forall l, ~ In q (map t_id l) <-> Forall (fun t => t_id t <> q) l).
  { intros l. rewrite Forall_forall, in_map_iff. split.
    - intros C t It E. apply C. eauto.
    - intros C (t & E & It). eapply C; eauto. }
  set (same := fun t t' : task => t_id t = t_id t').
  assert (tr : forall l l', Forall2 same l l' -> Forall (fun t => t_id t <> q) l -> Forall (fun t => t_id t <> q) l').
  { intros l l' F. induction F; intros G; inversion G; subst; constructor; auto. congruence. }
  assert (triv : forall (i : cid) (b : bytes), True -> True) by auto.
  (* the ids are unchanged: reuse the invariants with a trivial notion of good *)
  assert (GW : forall held lr l c l' c', get_from_writer env faults hw held lr l c l' c' -> Forall2 same l l' /\ (Forall (fun t => t_id t <> q) l -> c' q = c q)).
  { clear - Hq. intros held lr l c l' c' H. unfold get_from_writer in H. destruct (negb hw || read_done l).
    - minv. split; auto. apply Forall2_refl_. reflexivity.
    - split; [|intros F; eapply gfw_frame; eauto].
      change l with ([] ++ l). revert H. generalize (@nil task) as pre. revert c. induction l as [|t l IH]; intros c pre H; cbn [gfw_loop] in H.
      + minv. rewrite app_nil_r. apply Forall2_refl_. reflexivity.
      + assert (Step : forall t1 c1, t_id t = t_id t1 -> gfw_loop env faults held lr (pre ++ [t1]) l c1 l' c' -> Forall2 same (pre ++ t :: l) l').
        { intros t1 c1 E H1. apply IH in H1. rewrite <- app_assoc in H1. cbn [app] in H1.
          eapply (Forall2_trans_ same same same); [unfold same; congruence| |exact H1]. apply Forall2_app; [apply Forall2_refl_; reflexivity|].
          constructor; [exact E|apply Forall2_refl_; reflexivity]. }
        destruct (t_done t); [eapply Step; eauto|]. destruct (t_size t =? 0)%nat; [minv; eapply Step; [|eassumption]; reflexivity|].
        minv. destruct a as [b| |]; [|eapply Step; eauto..]. destruct (length b =? t_size t)%nat.
        * destruct (read_done (pre ++ set_done (set_out t b) true :: l)).
          -- minv. apply Forall2_app; [apply Forall2_refl_; reflexivity|]. constructor; [reflexivity|apply Forall2_refl_; reflexivity].
          -- eapply Step; [|exact B0]. reflexivity.
        * destruct lr; [eapply Step; [|exact B0]; reflexivity|]. minv. eapply Step; [|exact B2]. reflexivity. }
  assert (RL : forall rs l c s l' c', read_loop rs l c (s, l') c' -> c' = c /\ Forall2 same l l').
  { clear. intros rs l c s l' c' H.
    set (tr := fun i : cid => @None bytes).
    (* every byte string is good: no hypothesis about the readers is needed *)
    revert l c s l' c' H. induction rs as [|r rs IH]; intros l c s l' c' H; cbn [read_loop] in H; [minv; split; auto; apply Forall2_refl_; reflexivity|].
    minv. destruct a as [s1 l1].
    assert (R1 : c0 = c /\ Forall2 same l l1).
    { clear - B. unfold reader_list in B. destruct (r_kind r).
      - revert c s1 l1 c0 B. induction l as [|t l IHl]; intros c s1 l1 c0 B; cbn [default_list] in B; [minv; split; auto; constructor|].
        destruct (t_done t || _).
        + minv. destruct a as [s2 l2]. minv. useIH IHl. split; auto. constructor; auto. reflexivity.
        + minv. destruct a as [b| |].
          * destruct (_ =? _)%nat.
            -- minv. destruct a as [s2 l2]. minv. useIH IHl. split; auto. constructor; auto. reflexivity.
            -- minv. split; auto. constructor; [reflexivity|apply Forall2_refl_; reflexivity].
          * minv. destruct a as [s2 l2]. minv. useIH IHl. split; auto. constructor; auto. reflexivity.
          * minv. split; auto. constructor; [reflexivity|apply Forall2_refl_; reflexivity].
      - revert c s1 l1 c0 B. induction l as [|t l IHl]; intros c s1 l1 c0 B; cbn [mem_list] in B; [minv; split; auto; constructor|].
        destruct (t_done t).
        + minv. destruct a as [s2 l2]. minv. useIH IHl. split; auto. constructor; auto. reflexivity.
        + minv. destruct a as [b| |].
          * destruct (t_size t =? 0)%nat; [minv; destruct a as [s2 l2]; minv; useIH IHl; split; auto; constructor; auto; reflexivity|].
            destruct (_ <=? _)%nat; [minv; split; auto; constructor; [reflexivity|apply Forall2_refl_; reflexivity]|].
            destruct (_ <? _)%nat; [minv; split; auto; constructor; [reflexivity|apply Forall2_refl_; reflexivity]|].
            minv; destruct a as [s2 l2]; minv; useIH IHl; split; auto; constructor; auto; reflexivity.
          * minv. destruct a as [s2 l2]. minv. useIH IHl. split; auto. constructor; auto. reflexivity.
          * minv. split; auto. constructor; [reflexivity|apply Forall2_refl_; reflexivity].
      - unfold grpc_list in B. minv. destruct a as [x|]; [|minv; split; auto; apply Forall2_refl_; reflexivity].
        destruct (_ =? _)%nat; [|minv; split; auto; apply Forall2_refl_; reflexivity]. destruct B1 as (B1 & ->). split; auto. clear P.
        revert x s1 l1 B1. induction l as [|t l IHl]; intros x s1 l1 B1; cbn [grpc_copy] in B1; [inversion B1; constructor|].
        destruct (t_done t); [destruct (grpc_copy l x) as [s2 l2] eqn:E; inversion B1; subst; constructor; [reflexivity|eauto]|].
        destruct x as [|b x]; [inversion B1; subst; apply Forall2_refl_; reflexivity|].
        destruct (_ <? _)%nat; [inversion B1; subst; constructor; [reflexivity|apply Forall2_refl_; reflexivity]|].
        destruct (grpc_copy l x) as [s2 l2] eqn:E; inversion B1; subst; constructor; [reflexivity|eauto]. }
    destruct R1 as (-> & R1). destruct s1; [|minv; auto..]. destruct (prefetch_done l1); [minv; auto|].
    apply IH in B0. destruct B0 as (-> & R2). split; auto. eapply (Forall2_trans_ same same same); eauto. unfold same. congruence. }
  apply ids in N. unfold provider_get_list in H. minv. apply GW in B. destruct B as (S1 & C1). specialize (C1 N). pose proof (tr _ _ S1 N) as N1.
  destruct (read_done a); [minv; auto|]. minv. apply GW in B. destruct B as (S2 & C2). specialize (C2 N1). pose proof (tr _ _ S2 N1) as N2.
  destruct (read_done a0); [minv; congruence|]. minv. destruct a1 as [s1 l3]. apply RL in B. destruct B as (-> & S3). pose proof (tr _ _ S3 N2) as N3.
  destruct s1; [|minv; congruence..]. destruct hw; [|minv; congruence]. minv. apply (put_loop_frame env faults q Hq) in B; auto. congruence.
Qed.

Lemma first_reader_not_found env faults hw held id : forall rs c c',
  first_reader env faults hw held rs id c FNotFound c' -> forall r, In r rs -> r_fetch r id FNotFound.
Proof.
  induction rs as [|r rs IH]; intros c c' H q Iq; [contradiction|]. cbn [first_reader] in H. destruct H as (f & c1 & (F & ->) & H).
  destruct f as [b| |].
  - exfalso. destruct hw; [destruct H as (u & c2 & _ & H)|]; destruct H as (H & _); discriminate.
  - destruct Iq as [<-|Iq]; [exact F|eapply IH; eauto].
  - destruct H as (H & _). discriminate.
Qed.
