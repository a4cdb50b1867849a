(** Proofs about EnforceFileProtoSize and about directory lookup. *)
From Verif Require Import Base ListX Str ModelText ModelChunkMap ModelProvider SpecProvider ModelAsset SpecAsset ProofAsset.
Local Open Scope N_scope.

(** * Sizes *)
Lemma varint_le fuel x : varint_loop fuel x <= N.of_nat (S fuel).
Proof. revert x. induction fuel as [|f IH]; intros x; cbn [varint_loop]; [lia|]. destruct (x <? 128); [lia|]. specialize (IH (x / 128)). lia. Qed.
Lemma varint_pos x : 1 <= varint_size x.
Proof. unfold varint_size. cbn [varint_loop]. destruct (x <? 128); lia. Qed.
Lemma varint_small x : x < 128 -> varint_size x = 1.
Proof. intros H. unfold varint_size. cbn [varint_loop]. now rewrite (proj2 (N.ltb_lt _ _) H). Qed.
Lemma len_field_small n : n < 128 -> len_field n = n + 2.
Proof. intros H. unfold len_field. rewrite varint_small by auto. lia. Qed.

Definition good_id (id : cid) : Prop := length id = 20%nat.
Lemma id_size_20 id : good_id id -> id_size id = 22.
Proof. intros H. unfold id_size. destruct id as [|x id]; [discriminate H|]. unfold good_id in H. rewrite H. reflexivity. Qed.
Lemma offset_size_le o : offset_size o <= 11.
Proof. unfold offset_size. destruct (o =? 0); [lia|]. pose proof (varint_le 9 o). unfold varint_size. lia. Qed.
Lemma ref_size_bound r : good_id (cr_id r) -> 24 <= ref_size r < 128.
Proof.
  intros H. unfold ref_size. rewrite (id_size_20 _ H), len_field_small by lia. pose proof (offset_size_le (cr_off r)). lia.
Qed.
Lemma nsum_app a b : nsum (a ++ b) = nsum a + nsum b.
Proof. induction a as [|x a IH]; [reflexivity|]. change (nsum ((x :: a) ++ b)) with (x + nsum (a ++ b)). change (nsum (x :: a)) with (x + nsum a). lia. Qed.
Lemma chunk_list_bytes_snoc l r : good_id (cr_id r) -> chunk_list_bytes (l ++ [r]) = chunk_list_bytes l + (ref_size r + overhead).
Proof.
  intros G. unfold chunk_list_bytes. rewrite map_app, nsum_app. cbn [map nsum fold_right]. rewrite len_field_small by (apply ref_size_bound; auto).
  unfold overhead. lia.
Qed.

(** * Popping *)
Lemma pop_loop_split base m : forall kept p over kept' over', pop_loop base m kept p over = (kept', over') -> rev kept ++ over = rev kept' ++ over'.
Proof.
  induction kept as [|r kept IH]; intros p over kept' over' H; cbn [pop_loop] in H; [inversion H; reflexivity|].
  destruct (m <? p); [|inversion H; reflexivity]. apply IH in H. rewrite <- H. cbn [rev]. now rewrite <- app_assoc.
Qed.

Lemma file_bytes_snoc base l r : good_id (cr_id r) -> file_bytes base (l ++ [r]) [] = file_bytes base l [] + (ref_size r + overhead).
Proof. intros G. unfold file_bytes. rewrite chunk_list_bytes_snoc by auto. lia. Qed.

Lemma pop_loop_bound base m : forall kept over kept' over', Forall (fun r => good_id (cr_id r)) kept ->
  file_bytes base (rev kept) [] < two64 ->
  pop_loop base m kept (file_bytes base (rev kept) []) over = (kept', over') -> kept' = [] \/ file_bytes base (rev kept') [] <= m.
Proof.
  induction kept as [|r kept IH]; intros over kept' over' F B H; cbn [pop_loop] in H; [inversion H; auto|].
  inversion F as [|? ? G F']; subst. destruct (m <? file_bytes base (rev (r :: kept)) []) eqn:E; [|inversion H; subst; right; lia].
  assert (X : sub64 (file_bytes base (rev (r :: kept)) []) (ref_size r + overhead) = file_bytes base (rev kept) []).
  { pose proof (ref_size_bound r G). cbn [rev] in *. rewrite file_bytes_snoc in * by auto. unfold sub64, w64, overhead in *. lia. }
  rewrite X in H. assert (B' : file_bytes base (rev kept) [] < two64) by (cbn [rev] in B; rewrite file_bytes_snoc in B by auto; lia).
  destruct (file_bytes base (rev kept) [] <=? m); eapply IH in H; auto.
Qed.

(** * Filling lists *)
Section Fill.
Context (truth : cid -> option bytes).

(** Lists that follow each other. *)
Inductive lists_layout : N -> list (N * list cref) -> list bytes -> Prop :=
| ll_nil pos : lists_layout pos [] []
| ll_cons pos refs bs rest bs' : layout truth 0 refs bs -> lists_layout (pos + total bs) rest bs' ->
    lists_layout pos ((pos, refs) :: rest) (bs ++ bs').

Lemma layout_snoc pos refs bs r b : layout truth pos refs bs -> cr_off r = pos + total bs -> truth (cr_id r) = Some b ->
  layout truth pos (refs ++ [r]) (bs ++ [b]).
Proof.
  intros L O T. revert O. induction L as [pos|q rs c cs Tq L IH]; intros O.
  - cbn [app]. rewrite total_nil, N.add_0_r in O. subst pos. constructor; auto. constructor.
  - cbn [app]. constructor; auto. apply IH. rewrite O, total_cons. lia.
Qed.

Lemma layout_app_inv pos l1 l2 bs : layout truth pos (l1 ++ l2) bs ->
  exists b1 b2, bs = b1 ++ b2 /\ layout truth pos l1 b1 /\ layout truth (pos + total b1) l2 b2.
Proof.
  revert pos bs. induction l1 as [|r l1 IH]; intros pos bs L.
  - exists [], bs. rewrite total_nil, N.add_0_r. repeat split; auto. constructor.
  - cbn [app] in L. inversion L as [|? ? b bs' T L']; subst. destruct (IH _ _ L') as (b1 & b2 & -> & L1 & L2).
    exists (b :: b1), b2. repeat split; auto; [constructor; auto|]. rewrite total_cons. replace (cr_off r + (blen b + total b1)) with (cr_off r + blen b + total b1) by lia. exact L2.
Qed.

Lemma fill_layout ms : forall over loff cl size bs1 bs2, layout truth 0 cl bs1 -> layout truth (loff + total bs1) over bs2 ->
  loff + total bs1 + total bs2 < two64 ->
  lists_layout loff (fill_lists ms over loff cl size) (bs1 ++ bs2).
Proof.
  induction over as [|r over IH]; intros loff cl size bs1 bs2 L1 L2 B; cbn [fill_lists].
  - inversion L2; subst. constructor; auto. constructor.
  - inversion L2 as [|? ? b bs2' T L2' E]; subst. rewrite total_cons in B.
    destruct ((0 <? size) && _).
    + constructor; auto. assert (X := IH (cr_off r) [mkref 0 (cr_id r)] (grown ms 0 (ref_size (mkref 0 (cr_id r)) + overhead) [mkref 0 (cr_id r)]) [b] bs2').
      rewrite E in *. apply X.
      * change 0 with (cr_off (mkref 0 (cr_id r))) at 1. constructor; auto. constructor.
      * rewrite total_cons, total_nil, N.add_0_r. exact L2'.
      * rewrite total_cons, total_nil. lia.
    + replace (bs1 ++ b :: bs2') with ((bs1 ++ [b]) ++ bs2') by (rewrite <- app_assoc; reflexivity).
      assert (So : sub64 (cr_off r) loff = total bs1) by (unfold sub64, w64; lia).
      apply IH.
      * apply layout_snoc; [exact L1|cbn [cr_off]; lia|exact T].
      * rewrite total_app, total_cons, total_nil, N.add_0_r. replace (loff + (total bs1 + blen b)) with (cr_off r + blen b) by lia. exact L2'.
      * rewrite total_app, total_cons, total_nil. lia.
Qed.
End Fill.

Lemma fill_refs ms : forall over loff cl size, Forall (fun r => loff <= cr_off r < two64) over -> StronglySorted (fun a b => cr_off a <= cr_off b) over ->
  concat (map (fun e => abs_refs (fst e) (snd e)) (fill_lists ms over loff cl size)) = abs_refs loff cl ++ abs_refs 0 over.
Proof.
  induction over as [|r over IH]; intros loff cl size F S; cbn [fill_lists].
  - cbn [map concat fst snd]. unfold abs_refs at 3. cbn [map]. reflexivity.
  - inversion F as [|? ? Hr F']; subst. inversion S as [|? ? S' Hall]; subst.
    destruct ((0 <? size) && _).
    + cbn [map concat fst snd]. rewrite IH; auto.
      * f_equal. unfold abs_refs. cbn [map app cr_off cr_id]. now rewrite N.add_0_r, N.add_0_l.
      * rewrite Forall_forall in *. intros x Hx. specialize (F' x Hx). specialize (Hall x Hx). lia.
    + rewrite IH; auto. unfold abs_refs. rewrite map_app. cbn [map cr_off cr_id]. rewrite <- app_assoc. cbn [app].
      rewrite N.add_0_l. replace (loff + sub64 (cr_off r) loff) with (cr_off r); [reflexivity|].
      unfold sub64, w64. lia.
Qed.

Lemma grown_exact ms size s l : size + s = chunk_list_bytes l -> grown ms size s l = chunk_list_bytes l.
Proof. intros E. unfold grown. rewrite E. now destruct (ms <? _). Qed.

Lemma fill_bound ms : forall over loff cl, Forall (fun r => good_id (cr_id r)) over ->
  (cl = [] -> over <> []) -> (chunk_list_bytes cl <= ms \/ (length cl <= 1)%nat) ->
  (cl <> [] -> 0 < chunk_list_bytes cl) ->
  Forall (fun e => snd e <> [] /\ (chunk_list_bytes (snd e) <= ms \/ length (snd e) = 1%nat)) (fill_lists ms over loff cl (chunk_list_bytes cl)).
Proof.
  induction over as [|r over IH]; intros loff cl F NE B P; cbn [fill_lists].
  - constructor; [|constructor]. cbn [snd]. assert (cl <> []) by (intros E; specialize (NE E); congruence). split; auto.
    destruct B as [B|B]; auto. right. destruct cl; [congruence|]. cbn in *. lia.
  - inversion F as [|? ? G F']; subst.
    assert (Pn : forall o c, 0 < chunk_list_bytes (c ++ [mkref o (cr_id r)])).
    { intros o c. rewrite chunk_list_bytes_snoc by exact G. unfold overhead. lia. }
    destruct ((0 <? chunk_list_bytes cl) && _) eqn:E.
    + apply andb_true_iff in E. destruct E as (E1 & E2). constructor.
      * cbn [snd]. assert (cl <> []) by (intros ->; cbn in E1; discriminate). split; auto. destruct B as [B|B]; auto. right. destruct cl; [congruence|]. cbn in *. lia.
      * rewrite grown_exact.
        -- apply IH; auto; [discriminate|intros _; exact (Pn 0 [])].
        -- change [mkref 0 (cr_id r)] with ([] ++ [mkref 0 (cr_id r)]). rewrite chunk_list_bytes_snoc by exact G. reflexivity.
    + set (r1 := mkref (sub64 (cr_off r) loff) (cr_id r)) in *. rewrite grown_exact by (rewrite chunk_list_bytes_snoc by exact G; reflexivity).
      apply IH; auto.
      * intros C. now apply app_eq_nil in C.
      * rewrite chunk_list_bytes_snoc by exact G. apply andb_false_iff in E. destruct E as [E|E]; [|left; lia].
        right. rewrite app_length. destruct cl; [cbn; lia|]. assert (0 < chunk_list_bytes (c :: cl)) by (apply P; discriminate). lia.
      * intros _. apply Pn.
Qed.

(** * Writing *)
Section Write.
Context (truth : cid -> option bytes) (lists : cid -> option (list cref)) (put : list cref -> option cid).
Context (Hput : forall l id, put l = Some id -> lists id = Some l).

Lemma write_layout : forall ls ind pos bs, lists_layout truth pos ls bs -> write_lists put ls = Some ind -> ind_layout truth lists pos ind bs.
Proof.
  induction ls as [|[o l] ls IH]; intros ind pos bs L W; cbn [write_lists] in W.
  - inversion W; inversion L; subst. constructor.
  - destruct (put l) as [id|] eqn:P; [|discriminate]. destruct (write_lists put ls) as [ind'|] eqn:W'; [|discriminate]. inversion W; subst.
    inversion L; subst. econstructor; eauto.
Qed.

Lemma write_refs : forall ls ind, write_lists put ls = Some ind -> ind_refs lists ind (concat (map (fun e => abs_refs (fst e) (snd e)) ls)).
Proof.
  induction ls as [|[o l] ls IH]; intros ind W; cbn [write_lists] in W.
  - inversion W. constructor.
  - destruct (put l) as [id|] eqn:P; [|discriminate]. destruct (write_lists put ls) as [ind'|] eqn:W'; [|discriminate]. inversion W; subst.
    cbn [map concat fst snd]. constructor; auto.
Qed.

Lemma write_all P : forall ls ind, write_lists put ls = Some ind -> Forall P ls -> Forall (fun e => exists l, lists (snd e) = Some l /\ P (fst e, l)) ind.
Proof.
  induction ls as [|[o l] ls IH]; intros ind W F; cbn [write_lists] in W.
  - inversion W. constructor.
  - destruct (put l) as [id|] eqn:Pu; [|discriminate]. destruct (write_lists put ls) as [ind'|] eqn:W'; [|discriminate]. inversion W; subst.
    inversion F; subst. constructor; eauto.
Qed.
End Write.

Lemma layout_sorted truth pos refs bs : layout truth pos refs bs -> pos + total bs < two64 ->
  StronglySorted (fun a b => cr_off a <= cr_off b) refs /\ Forall (fun r => pos <= cr_off r < two64) refs.
Proof.
  induction 1 as [|r rs b bs T L IH]; intros B; [split; constructor|]. rewrite total_cons in B. destruct IH as (S & F); [lia|]. split.
  - constructor; auto. rewrite Forall_forall in *. intros x Hx. specialize (F x Hx). lia.
  - constructor; [lia|]. rewrite Forall_forall in *. intros x Hx. specialize (F x Hx). lia.
Qed.

(** * AppendChunk *)
Lemma append_describes truth lists fp content id b : describes truth lists fp content -> fp_ind fp = [] -> truth id = Some b ->
  blen content + blen b < two64 -> describes truth lists (append_chunk fp id (blen b)) (content ++ b).
Proof.
  intros (d & i & L & I & C & S & B) E T B'. rewrite E in I. inversion I; subst. rewrite app_nil_r in *.
  exists (d ++ [b]), []. unfold append_chunk. cbn [fp_chunks fp_ind fp_size].
  assert (Sd : fp_size fp = total d) by (rewrite S; reflexivity).
  split; [|split; [|split; [|split]]].
  - apply layout_snoc; [exact L|cbn [cr_off]; rewrite Sd; lia|exact T].
  - rewrite E. constructor.
  - rewrite app_nil_r, concat_app. cbn [concat]. now rewrite app_nil_r.
  - rewrite blen_app, <- S. unfold w64. apply N.mod_small. lia.
  - rewrite blen_app. exact B'.
Qed.

(** * Directory lookup *)
Section Dir.
Context {A : Type} (name : A -> bytes).

Notation named n := (fun a => if list_eq_dec N.eq_dec (name a) n then true else false).

Lemma add_all_cons t a l : add_all name t (a :: l) = add_all name (fun q => if list_eq_dec N.eq_dec q (name a) then Some a else t q) l.
Proof. reflexivity. Qed.

Lemma add_all_spec l : NoDup (map name l) -> forall t n, add_all name t l n = match child_named name l n with Some a => Some a | None => t n end.
Proof.
  induction l as [|a l IH]; intros Nd t n; [reflexivity|]. inversion Nd as [|? ? Ni Nd']; subst. rewrite add_all_cons, IH by auto.
  unfold child_named. cbn [find]. destruct (list_eq_dec N.eq_dec (name a) n) as [e|ne].
  - destruct (find (named n) l) as [b|] eqn:F.
    + exfalso. apply find_some in F. destruct F as (Ib & Eb). destruct (list_eq_dec N.eq_dec (name b) n); [|discriminate].
      apply Ni. rewrite e, <- e0. now apply in_map.
    + destruct (list_eq_dec N.eq_dec n (name a)); congruence.
  - destruct (find (named n) l); auto. destruct (list_eq_dec N.eq_dec n (name a)); congruence.
Qed.

Lemma child_app l1 l2 n : child_named name (l1 ++ l2) n = match child_named name l1 n with Some a => Some a | None => child_named name l2 n end.
Proof. unfold child_named. induction l1 as [|a l1 IH]; [reflexivity|]. cbn [app find]. destruct (list_eq_dec N.eq_dec (name a) n); auto. Qed.

Context (direct : list A) (lists : list (list A)) (Nd : NoDup (map name (direct ++ concat lists))).

(** The table holds the direct entries and those of the loaded lists. *)
Definition dir_ok (s : dirstate) : Prop :=
  (ds_loaded s <= length lists)%nat /\ forall n, ds_table s n = child_named name (direct ++ concat (firstn (ds_loaded s) lists)) n.

Lemma NoDup_app_l {B} (a b : list B) : NoDup (a ++ b) -> NoDup a.
Proof. induction a as [|x a IH]; intros H; [constructor|]. inversion H; subst. constructor; auto. intros C. apply H2. apply in_or_app. auto. Qed.
Lemma NoDup_app_r {B} (a b : list B) : NoDup (a ++ b) -> NoDup b.
Proof. induction a as [|x a IH]; intros H; auto. inversion H; auto. Qed.

Lemma init_ok : dir_ok (dir_init name direct).
Proof.
  split; [cbn; lia|]. intros n. cbn [dir_init ds_table ds_loaded firstn concat]. rewrite app_nil_r, add_all_spec.
  - destruct (child_named name direct n); reflexivity.
  - rewrite map_app in Nd. now apply NoDup_app_l in Nd.
Qed.

Lemma load_ok s l : dir_ok s -> nth_error lists (ds_loaded s) = Some l -> dir_ok (mkds (S (ds_loaded s)) (add_all name (ds_table s) l)).
Proof.
  intros (Le & T) E. split; [cbn; apply nth_error_Some; congruence|]. intros n. cbn [ds_table ds_loaded].
  assert (Split : concat (firstn (S (ds_loaded s)) lists) = concat (firstn (ds_loaded s) lists) ++ l).
  { rewrite (firstn_S_snoc _ _ _ E), concat_app. cbn [concat]. now rewrite app_nil_r. }
  assert (Nl : NoDup (map name (direct ++ concat (firstn (ds_loaded s) lists) ++ l))).
  { rewrite <- (firstn_skipn (S (ds_loaded s)) lists), concat_app, Split, app_assoc, map_app in Nd. now apply NoDup_app_l in Nd. }
  rewrite Split, app_assoc, child_app. rewrite app_assoc, map_app in Nl. rewrite add_all_spec by (eapply NoDup_app_r; exact Nl). rewrite T.
  set (old := direct ++ concat (firstn (ds_loaded s) lists)) in *.
  destruct (child_named name l n) as [a|] eqn:Cl; destruct (child_named name old n) as [b|] eqn:Co; auto.
  exfalso. unfold child_named in *. apply find_some in Cl. apply find_some in Co. destruct Cl as (Ia & Ea), Co as (Ib & Eb).
  destruct (list_eq_dec N.eq_dec (name a) n) as [ea|]; [|discriminate]. destruct (list_eq_dec N.eq_dec (name b) n) as [eb|]; [|discriminate].
  clear - Nl Ia Ib ea eb. induction old as [|x old IH]; [contradiction|]. cbn in Nl. inversion Nl; subst. destruct Ib as [->|Ib].
  - apply H1. apply in_or_app. right. rewrite eb. now apply in_map.
  - auto.
Qed.

Lemma loads_ok s s' : dir_ok s -> loads name lists s s' -> dir_ok s'.
Proof. intros H L. induction L; auto. now apply load_ok. Qed.

Lemma fetch_ok s b s' f : dir_ok s -> fetch_next name lists f s = (b, s') -> dir_ok s'.
Proof.
  intros H E. unfold fetch_next in E. destruct (nth_error lists (ds_loaded s)) as [l|] eqn:N; [|inversion E; subst; auto].
  destruct f; inversion E; subst; auto. now apply load_ok.
Qed.

Lemma loaded_all s : dir_ok s -> fetch_next name lists false s = (Ok false, s) -> forall n, ds_table s n = child_named name (direct ++ concat lists) n.
Proof.
  intros (Le & T) E n. unfold fetch_next in E. destruct (nth_error lists (ds_loaded s)) as [l|] eqn:N; [discriminate|].
  apply nth_error_None in N. rewrite T, firstn_all2 by lia. reflexivity.
Qed.

Lemma find_mono s n a : dir_ok s -> ds_table s n = Some a -> child_named name (direct ++ concat lists) n = Some a.
Proof.
  intros (Le & T) E. rewrite T in E. rewrite <- (firstn_skipn (ds_loaded s) lists), concat_app, app_assoc, child_app, E. reflexivity.
Qed.

Lemma loads_all_none s s' : dir_ok s -> loads name lists s s' -> fetch_next name lists false s = (Ok false, s) -> s' = s.
Proof.
  intros H L E. induction L as [|s1 l L IH N]; auto. subst s1. unfold fetch_next in E. rewrite N in E. discriminate.
Qed.

Lemma lookup_found n s r s' : dir_ok s -> lookup name (loads name lists) lists n s r s' ->
  dir_ok s' /\ match r with Ok (Some a) => child_named name (direct ++ concat lists) n = Some a | Ok None | Fail => True | _ => False end.
Proof.
  intros H L. induction L as [s s1 a L1 E|s s1 s2 L1 E L2 F|s s1 s2 L1 E L2 F|s s1 s2 s3 r s4 L1 E L2 F L IH].
  - pose proof (loads_ok _ _ H L1) as H1. split; auto. eapply find_mono; eauto.
  - pose proof (loads_ok _ _ (loads_ok _ _ H L1) L2) as H2. auto.
  - pose proof (loads_ok _ _ (loads_ok _ _ H L1) L2) as H2. auto.
  - apply IH. eapply fetch_ok; [|exact F]. eauto using loads_ok.
Qed.

Lemma lookup_alone n s r s' : dir_ok s -> lookup name eq lists n s r s' ->
  dir_ok s' /\ match r with Ok o => o = child_named name (direct ++ concat lists) n | Fail => True | _ => False end.
Proof.
  intros H L. induction L as [s s1 a L1 E|s s1 s2 L1 E L2 F|s s1 s2 L1 E L2 F|s s1 s2 s3 r s4 L1 E L2 F L IH]; subst.
  - split; auto. symmetry. eapply find_mono; eauto.
  - split; auto. rewrite <- (loaded_all s2 H F n). congruence.
  - auto.
  - apply IH. eapply fetch_ok; [|exact F]. auto.
Qed.

Lemma children_ok s r s' : dir_ok s -> get_all_children name lists s r s' ->
  dir_ok s' /\ match r with Ok t => forall n, t n = child_named name (direct ++ concat lists) n | Fail => True | _ => False end.
Proof.
  intros H L. induction L as [s s1 s2 L1 F L2|s s1 L1 F|s s1 s2 r s3 L1 F L IH].
  - pose proof (loads_ok _ _ H L1) as H1. pose proof (loads_all_none s1 s2 H1 L2 F) as ->. split; auto. intros n. now apply loaded_all.
  - split; eauto using loads_ok.
  - apply IH. eapply fetch_ok; [|exact F]. eauto using loads_ok.
Qed.
End Dir.
