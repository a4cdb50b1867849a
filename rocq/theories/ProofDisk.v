From Verif Require Import Base ListX Str ModelText ProofText ModelChunkMap ProofChunkMap ModelPath SpecPath ModelDisk SpecDisk.
Local Open Scope N_scope.

Section Paths.
Context (sep : byte) (Hs : separator sep).

Lemma seps_other c : negb ((c =? sep) || (c =? other_sep sep)) = true <-> ~ separator c.
Proof.
  unfold separator, slash, backslash, other_sep in *. rewrite negb_true_iff, orb_false_iff, !N.eqb_neq.
  destruct Hs as [E|E]; rewrite E in *; cbn; lia.
Qed.

Lemma strip_clean l : Forall (fun c => ~ separator c) l -> strip_seps sep l = l.
Proof.
  unfold strip_seps. induction 1 as [|c l Hc H IH]; [reflexivity|]. cbn [filter]. apply seps_other in Hc. now rewrite Hc, IH.
Qed.

Lemma strip_app a b : strip_seps sep (a ++ b) = strip_seps sep a ++ strip_seps sep b.
Proof. apply filter_app. Qed.

Lemma strip_loop d n : forall l, Forall (fun c => ~ separator c) l -> strip_seps sep (add_seps_loop sep d n l) = l.
Proof.
  induction n as [|n IH]; intros l F; cbn [add_seps_loop]; [now apply strip_clean|].
  destruct l as [|c l]; [reflexivity|].
  rewrite strip_app. change (sep :: ?x) with ([sep] ++ x). rewrite strip_app.
  assert (strip_seps sep [sep] = []) as ->. { unfold strip_seps. cbn. now rewrite N.eqb_refl. }
  rewrite <- (firstn_skipn d (c :: l)) in F. apply Forall_app in F. destruct F as (F1 & F2).
  rewrite strip_clean, IH by assumption. cbn [app]. apply firstn_skipn.
Qed.

Lemma strip_add d n l : Forall (fun c => ~ separator c) l -> strip_seps sep (add_seps sep l d n) = l.
Proof.
  intros F. unfold add_seps. destruct l as [|c l]; [reflexivity|]. destruct d; [now apply strip_clean|].
  destruct n; [now apply strip_clean|]. now apply strip_loop.
Qed.

Lemma hex_chars id : is_bytes id -> Forall is_hex (to_hex_string id).
Proof.
  assert (H : forall n, n < 16 -> is_hex (int_to_hex n)).
  { intros n Hn. unfold is_hex, int_to_hex. destruct (N.leb_spec n 9); [lia|]. destruct (N.leb_spec n 15); lia. }
  induction 1 as [|b id Hb _ IH]; cbn [to_hex_string]; [constructor|]. destruct (nibbles b Hb) as (H1 & H2 & _). auto.
Qed.

Lemma hex_nosep id : is_bytes id -> Forall (fun c => ~ separator c) (to_hex_string id).
Proof. intros H. eapply Forall_impl; [|apply hex_chars, H]. unfold is_hex, separator, slash, backslash. intros. lia. Qed.

Lemma parse_cache depth id : chunk_id id -> parse_path sep depth (cache_path sep depth id) = Some id.
Proof.
  intros (L & B). unfold parse_path, cache_path. destruct depth as [|d].
  - replace (add_seps sep (to_hex_string id) 2 0) with (to_hex_string id) by (unfold add_seps; destruct (to_hex_string id); reflexivity).
    now rewrite hex_roundtrip.
  - rewrite strip_add by now apply hex_nosep. now rewrite hex_roundtrip.
Qed.

Lemma cache_inj depth a b : chunk_id a -> chunk_id b -> cache_path sep depth a = cache_path sep depth b -> a = b.
Proof. intros A B E. apply (parse_cache depth) in A, B. rewrite E in A. congruence. Qed.

Lemma parse_chunk depth p id : parse_path sep depth p = Some id -> chunk_id id.
Proof.
  unfold parse_path. set (q := match depth with O => p | S _ => _ end). unfold from_hex_string.
  destruct (Nat.eqb (length q) (hash_size * 2)) eqn:L; [|discriminate]. apply Nat.eqb_eq in L.
  destruct (from_hex_loop q) as [i| | |] eqn:E; try discriminate. intros [= <-].
  apply from_hex_loop_inv in E. destruct E as (B & E). split; auto. rewrite <- E, to_hex_length in L. unfold hash_size in L. lia.
Qed.
End Paths.

Lemma sltb_slt a b : sltb a b = true <-> slt a b.
Proof. destruct (sltb_spec a b); split; auto; congruence. Qed.

Lemma Permutation_total fs fs' : Permutation fs fs' -> total fs = total fs'.
Proof. unfold total. induction 1; cbn [fold_right]; lia. Qed.

(** Association list facts. *)
Lemma ferase_In {B} k (l : list (bytes * B)) x : NoDup (map fst l) -> (In x (ferase k l) <-> In x l /\ fst x <> k).
Proof.
  induction l as [|[k' v'] l IH]; cbn [ferase In map fst]; intros N; [tauto|].
  apply NoDup_cons_iff in N. destruct N as (N1 & N2). destruct (seqb k k') eqn:E.
  - apply seqb_eq in E. subst k'. split.
    + intros H. split; auto. intros C. subst k. apply N1. now apply in_map.
    + intros ([<-|H] & C); [cbn in C; congruence|auto].
  - apply seqb_neq in E. cbn [In]. rewrite IH by auto. split.
    + intros [<-|(H & C)]; [cbn; split; auto|tauto].
    + tauto.
Qed.

Lemma total_cons f fs : total (f :: fs) = (dlen (fst (snd f)) + total fs)%Z.
Proof. reflexivity. Qed.

Lemma total_erase k c t fs : NoDup (map fst fs) -> In (k, (c, t)) fs -> total (ferase k fs) = (total fs - dlen c)%Z.
Proof.
  induction fs as [|[k' v'] fs IH]; cbn [ferase map fst In]; [tauto|]. intros N H. rewrite total_cons.
  apply NoDup_cons_iff in N. destruct N as (N1 & N2). destruct (seqb k k') eqn:E.
  - apply seqb_eq in E. subst k'. destruct H as [H|H]; [inversion H; subst; cbn [fst snd]; lia|].
    exfalso. apply N1. apply (in_map fst) in H. exact H.
  - apply seqb_neq in E. rewrite total_cons. destruct H as [H|H]; [inversion H; congruence|]. rewrite IH by auto. lia.
Qed.

Lemma total_nonneg fs : (0 <= total fs)%Z.
Proof. induction fs as [|f fs IH]; [cbn; lia|]. rewrite total_cons. unfold dlen. lia. Qed.

Lemma total_erase_le k fs : (total (ferase k fs) <= total fs)%Z.
Proof.
  induction fs as [|[k' v'] fs IH]; cbn [ferase]; [lia|]. rewrite total_cons.
  destruct (seqb k k'); [unfold dlen; lia|]. rewrite total_cons. lia.
Qed.

Lemma total_put k c t fs : total (fput k (c, t) fs) = (total fs - (match ffind k fs with Some (d, _) => dlen d | None => 0 end) + dlen c)%Z.
Proof.
  induction fs as [|[k' [d t']] fs IH]; cbn [fput ffind]; [rewrite total_cons; cbn; lia|].
  rewrite total_cons. destruct (seqb k k'); rewrite total_cons; cbn [fst snd]; [lia|]. rewrite IH. lia.
Qed.

Lemma fput_In {B} k (v : B) l x : NoDup (map fst l) -> (In x (fput k v l) <-> x = (k, v) \/ In x l /\ fst x <> k).
Proof.
  induction l as [|[k' v'] l IH]; cbn [fput In map fst]; intros N; [intuition|].
  apply NoDup_cons_iff in N. destruct N as (N1 & N2). destruct (seqb k k') eqn:E.
  - apply seqb_eq in E. subst k'. cbn [In]. split.
    + intros [<-|H]; [auto|]. right. split; auto. intros C. subst k. apply N1. now apply in_map.
    + intros [->|([<-|H] & C)]; auto. cbn in C. congruence.
  - apply seqb_neq in E. cbn [In]. rewrite IH by auto. split.
    + intros [<-|[->|(H & C)]]; auto.
    + tauto.
Qed.

Lemma cache_dir_put sep depth fs id v : cache_dir sep depth fs -> chunk_id id -> cache_dir sep depth (fput (cache_path sep depth id) v fs).
Proof.
  intros (N & H) C. split; [now apply fput_NoDup|]. intros p w I. apply fput_In in I; auto. destruct I as [I|(I & _)]; [|eauto].
  inversion I; subst. eauto.
Qed.
Lemma cache_dir_erase sep depth fs k : cache_dir sep depth fs -> cache_dir sep depth (ferase k fs).
Proof. intros (N & H). split; [now apply ferase_NoDup|]. intros p w I. apply ferase_In in I; auto. destruct I as (I & _). eauto. Qed.

(** Prune. *)
Lemma in_keep id keep : existsb (seqb id) keep = true <-> In id keep.
Proof.
  rewrite existsb_exists. split.
  - intros (x & I & E). apply seqb_eq in E. now subst.
  - intros I. exists id. split; auto. apply seqb_refl.
Qed.

Definition ids_of (sep : byte) (depth : nat) (files : list dfile) : list cid :=
  flat_map (fun f => match parse_path sep depth (fst f) with Some id => [id] | None => [] end) files.

Lemma prune_spec sep depth : separator sep -> forall files keep fs keep' fs' size',
  NoDup (map fst files) -> NoDup (map fst fs) -> (forall f, In f files -> In f fs) ->
  (forall p v, In (p, v) files -> parse_path sep depth p = None \/ exists id, chunk_id id /\ p = cache_path sep depth id) ->
  prune_loop sep depth files keep fs (total fs) = (keep', fs', size') ->
  (forall id, chunk_id id -> ffind (cache_path sep depth id) fs' =
     if in_dec (list_eq_dec N.eq_dec) id keep then ffind (cache_path sep depth id) fs
     else if in_dec (list_eq_dec N.eq_dec) (cache_path sep depth id) (map fst files) then None else ffind (cache_path sep depth id) fs) /\
  (forall id, In id keep' <-> In id keep /\ ~ In id (ids_of sep depth files)) /\
  size' = total fs' /\ NoDup (map fst fs') /\ (forall x, In x fs' -> In x fs).
Proof.
  intros Hs. induction files as [|f files IH]; intros keep fs keep' fs' size' Nf Nfs Sub Own; cbn [prune_loop ids_of flat_map map].
  - intros [= <- <- <-]. split; [intros id _; destruct (in_dec (list_eq_dec N.eq_dec) id keep); reflexivity|]. split; [cbn; tauto|]. auto.
  - cbn [map] in Nf. apply NoDup_cons_iff in Nf. destruct Nf as (Nf1 & Nf2).
    assert (Own' : forall p v, In (p, v) files -> parse_path sep depth p = None \/ exists id, chunk_id id /\ p = cache_path sep depth id)
      by (intros; eapply Own; right; eauto).
    destruct f as [p [c t]]. cbn [fst snd] in *. destruct (parse_path sep depth p) as [id0|] eqn:P.
    + destruct (Own p (c, t)) as [O|(id1 & C1 & ->)]; [now left|congruence|].
      rewrite parse_cache in P by auto. inversion P; subst id1. clear P.
      destruct (existsb (seqb id0) keep) eqn:K.
      * apply in_keep in K. intros E. apply IH in E; auto; [|intros; apply Sub; now right]. destruct E as (A & B & C & D & F).
        split; [|split; [|auto]].
        -- intros id Hid. rewrite A by auto.
           destruct (list_eq_dec N.eq_dec id id0) as [->|Ne].
           ++ destruct (in_dec (list_eq_dec N.eq_dec) id0 keep) as [_|]; [|contradiction].
              destruct (in_dec (list_eq_dec N.eq_dec) id0 (filter (fun k : bytes => negb (seqb id0 k)) keep)) as [_|_]; [reflexivity|].
              destruct (in_dec (list_eq_dec N.eq_dec) (cache_path sep depth id0) (map fst files)); [contradiction|reflexivity].
           ++ assert (Q : In id (filter (fun k => negb (seqb id0 k)) keep) <-> In id keep).
              { rewrite filter_In, negb_true_iff, seqb_neq. split; [tauto|]. intros; split; auto. }
              destruct (in_dec (list_eq_dec N.eq_dec) id (filter (fun k : bytes => negb (seqb id0 k)) keep)) as [i|i]; destruct (in_dec (list_eq_dec N.eq_dec) id keep) as [j|j]; try tauto.
              destruct (in_dec (list_eq_dec N.eq_dec) (cache_path sep depth id) (map fst files)) as [i1|i1];
                destruct (in_dec (list_eq_dec N.eq_dec) (cache_path sep depth id) (cache_path sep depth id0 :: map fst files)) as [i2|i2]; auto.
              ** exfalso. apply i2. now right.
              ** destruct i2 as [i2|i2]; [|contradiction]. apply cache_inj in i2; auto. congruence.
        -- intros id. rewrite B, filter_In, negb_true_iff, seqb_neq. change (flat_map _ files) with (ids_of sep depth files). cbn [app In]. intuition.
      * assert (K' : ~ In id0 keep) by (rewrite <- in_keep; congruence).
        assert (If : In (cache_path sep depth id0, (c, t)) fs) by (apply Sub; now left).
        rewrite <- (total_erase (cache_path sep depth id0) c t fs) by auto. intros E.
        apply IH in E; auto; [|now apply ferase_NoDup|].
        2:{ intros x Hx. apply ferase_In; auto. split; [apply Sub; now right|]. intros Ek. apply Nf1. rewrite <- Ek. now apply in_map. }
        destruct E as (A & B & C & D & F). split; [|split; [|split; [auto|split; [auto|]]]].
        -- intros id Hid. rewrite A by auto. rewrite ffind_erase by auto.
           destruct (in_dec (list_eq_dec N.eq_dec) id keep) as [j|j].
           ++ destruct (list_eq_dec N.eq_dec (cache_path sep depth id) (cache_path sep depth id0)) as [e|e]; [|reflexivity].
              apply cache_inj in e; auto. subst. contradiction.
           ++ destruct (in_dec (list_eq_dec N.eq_dec) (cache_path sep depth id) (map fst files)) as [i1|i1];
                destruct (in_dec (list_eq_dec N.eq_dec) (cache_path sep depth id) (cache_path sep depth id0 :: map fst files)) as [i2|i2]; auto.
              ** exfalso. apply i2. now right.
              ** destruct i2 as [i2|i2]; [|contradiction]. destruct (list_eq_dec N.eq_dec (cache_path sep depth id) (cache_path sep depth id0)); congruence.
              ** destruct (list_eq_dec N.eq_dec (cache_path sep depth id) (cache_path sep depth id0)) as [e|e]; [|reflexivity].
                 exfalso. apply i2. now left.
        -- intros id. rewrite B. change (flat_map _ files) with (ids_of sep depth files). cbn [app In]. intuition. subst. contradiction.
        -- intros x Hx. apply F in Hx. apply ferase_In in Hx; tauto.
    + intros E. apply IH in E; auto; [|intros; apply Sub; now right]. destruct E as (A & B & C & D & F).
      split; [|split; [|auto]].
      * intros id Hid. rewrite A by auto. destruct (in_dec (list_eq_dec N.eq_dec) id keep); auto.
        destruct (in_dec (list_eq_dec N.eq_dec) (cache_path sep depth id) (map fst files)) as [i1|i1];
          destruct (in_dec (list_eq_dec N.eq_dec) (cache_path sep depth id) (p :: map fst files)) as [i2|i2]; auto.
        -- exfalso. apply i2. now right.
        -- destruct i2 as [i2|i2]; [|contradiction]. subst p. rewrite parse_cache in P by auto. discriminate.
      * intros id. rewrite B. cbn [app]. reflexivity.
Qed.

(** Cleanup. *)
Lemma lru_insert_perm x l : Permutation (x :: l) (lru_insert x l).
Proof.
  induction l as [|y l IH]; cbn [lru_insert]; [reflexivity|]. destruct (lru_ltb x y); [reflexivity|].
  rewrite perm_swap. now constructor.
Qed.
Lemma lru_sort_perm l : Permutation l (lru_sort l).
Proof. induction l as [|x l IH]; cbn [lru_sort fold_right]; [reflexivity|]. rewrite <- lru_insert_perm. now constructor. Qed.

Lemma lru_ltb_spec a b : lru_ltb a b = true <-> less_recent a b.
Proof.
  unfold lru_ltb, less_recent. destruct (Z.eqb_spec (snd (snd a)) (snd (snd b))) as [E|E].
  - rewrite sltb_slt. split; [auto|]. intros [?|[_ ?]]; [lia|auto].
  - rewrite Z.ltb_lt. split; [auto|]. intros [?|[? _]]; [auto|lia].
Qed.
Lemma less_recent_total a b : fst a <> fst b -> ~ less_recent a b -> less_recent b a.
Proof.
  unfold less_recent. intros N H. destruct (Z.lt_trichotomy (snd (snd a)) (snd (snd b))) as [?|[E|?]]; [tauto| |tauto].
  right. split; [auto|]. destruct (scmp (fst a) (fst b)) eqn:S.
  - apply scmp_eq in S. congruence.
  - exfalso. apply H. right. auto.
  - unfold slt. rewrite scmp_antisym, S. reflexivity.
Qed.
Lemma less_recent_trans a b c : less_recent a b -> less_recent b c -> less_recent a c.
Proof. unfold less_recent. intros [?|[? ?]] [?|[? ?]]; try (left; lia). right. split; [lia|]. eapply slt_trans; eauto. Qed.

Lemma lru_insert_sorted x l : ~ In (fst x) (map fst l) -> StronglySorted less_recent l -> StronglySorted less_recent (lru_insert x l).
Proof.
  intros N S. induction S as [|y l S IH F]; cbn [lru_insert]; [repeat constructor|].
  cbn [map In] in N. destruct (lru_ltb x y) eqn:E.
  - apply lru_ltb_spec in E. constructor; [now constructor|]. constructor; auto. eapply Forall_impl; [|exact F]. intros. eapply less_recent_trans; eauto.
  - constructor; [apply IH; tauto|]. eapply Permutation_Forall; [apply lru_insert_perm|]. constructor; auto.
    apply less_recent_total; [intros C; apply N; left; auto|]. rewrite <- lru_ltb_spec. congruence.
Qed.
Lemma lru_sort_sorted l : NoDup (map fst l) -> StronglySorted less_recent (lru_sort l).
Proof.
  induction l as [|x l IH]; cbn [lru_sort fold_right map]; intros N; [constructor|]. apply NoDup_cons_iff in N. destruct N as (N1 & N2).
  apply lru_insert_sorted; auto. intros C. apply N1. apply (Permutation_in _ (Permutation_sym (Permutation_map fst (lru_sort_perm l)))). exact C.
Qed.

Lemma evict_spec limit intr : forall files n fs b fs' size',
  NoDup (map fst files) -> NoDup (map fst fs) -> (forall f, In f files -> In f fs) ->
  evict limit intr n files fs (total fs) = (b, fs', size') ->
  exists E rest, files = E ++ rest /\ (forall x, In x fs' <-> In x fs /\ ~ In x E) /\ NoDup (map fst fs') /\ size' = total fs' /\
    (b = false -> rest = [] \/ (total fs' <= limit)%Z) /\
    (forall E0 e, E = E0 ++ [e] -> (limit < total fs' + dlen (fst (snd e)))%Z).
Proof.
  induction files as [|f files IH]; intros n fs b fs' size' Nf Nfs Sub; cbn [evict].
  - intros [= <- <- <-]. exists [], []. repeat split; auto; try tauto. intros [|] ? ?; discriminate.
  - cbn [map] in Nf. apply NoDup_cons_iff in Nf. destruct Nf as (Nf1 & Nf2).
    destruct (limit <? total fs)%Z eqn:L.
    + assert (If : In f fs) by (apply Sub; now left). destruct f as [p [c t]]. cbn [fst snd] in *.
      assert (T : (total (ferase p fs) = total fs - dlen c)%Z) by (eapply total_erase; eauto). rewrite <- T.
      assert (X : forall x, In x (ferase p fs) <-> In x fs /\ ~ x = (p, (c, t))).
      { intros x. rewrite ferase_In by auto. split.
        - intros (I & Ne). split; auto. intros ->. now apply Ne.
        - intros (I & Ne). split; auto. intros C. apply Ne. destruct x as [p' v]. cbn in C. subst p'.
          apply (In_ffind _ _ _ Nfs) in I, If. rewrite I in If. inversion If. reflexivity. }
      destruct (intr n).
      * intros [= <- <- <-]. exists [(p, (c, t))], files. split; [reflexivity|]. split; [intros x; rewrite X; cbn [In]; intuition|].
        split; [now apply ferase_NoDup|]. split; [reflexivity|]. split; [discriminate|].
        intros [|? [|? ?]] e E; inversion E; subst. cbn [fst snd]. lia.
      * intros E. apply IH in E; auto; [|now apply ferase_NoDup|].
        2:{ intros x Hx. apply X. split; [apply Sub; now right|]. intros ->. apply Nf1. apply (in_map fst) in Hx. exact Hx. }
        destruct E as (E & rest & -> & A & B & C & D & F). exists ((p, (c, t)) :: E), rest. split; [reflexivity|].
        split; [intros x; rewrite A, X; cbn [In]; intuition|]. split; auto. split; auto. split; auto.
        intros E0 e Ee. destruct E0 as [|e0 E0].
        -- inversion Ee; subst. cbn [fst snd].
           assert (Q : forall x, In x fs' <-> In x (ferase p fs)) by (intros x; rewrite A; cbn; tauto).
           assert (total fs' = total (ferase p fs)); [|lia].
           apply Permutation_total. apply NoDup_Permutation; auto; [now apply (NoDup_map_inv fst)|apply (NoDup_map_inv fst); now apply ferase_NoDup].
        -- inversion Ee; subst. now apply (F E0).
    + intros [= <- <- <-]. exists [], (f :: files). split; [reflexivity|]. split; [intros x; cbn; tauto|]. split; auto. split; auto.
      split; [intros _; right; lia|]. intros [|] ? ?; discriminate.
Qed.
