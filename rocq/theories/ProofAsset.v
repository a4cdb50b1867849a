(** Proofs about ModelAsset: reading. *)
From Verif Require Import Base ListX Str ModelText ModelChunkMap ModelProvider SpecProvider ModelAsset SpecAsset.
Local Open Scope N_scope.

Notation two64 := 18446744073709551616 (only parsing).

(** * std::upper_bound *)
Section UB.
Context {A : Type} (less : A -> bool) (l : list A).
Context (mono : forall i j x y, (i <= j)%nat -> nth_error l i = Some x -> nth_error l j = Some y -> less x = true -> less y = true).

Lemma ub_loop_spec : forall fuel first len, (first + len <= length l)%nat -> (len <= fuel)%nat ->
  (forall i x, (i < first)%nat -> nth_error l i = Some x -> less x = false) ->
  (forall i x, (first + len <= i)%nat -> nth_error l i = Some x -> less x = true) ->
  let k := ub_loop less l fuel first len in
  (k <= length l)%nat /\ (forall i x, (i < k)%nat -> nth_error l i = Some x -> less x = false) /\
  (forall i x, (k <= i)%nat -> nth_error l i = Some x -> less x = true).
Proof.
  induction fuel as [|f IH]; intros first len H1 H2 H3 H4; cbn [ub_loop].
  - split; [lia|]. split; auto. intros i x Hi. apply H4. lia.
  - destruct (len =? 0)%nat eqn:E; [apply Nat.eqb_eq in E; subst; split; [lia|]; split; auto; intros i x Hi; apply H4; lia|].
    apply Nat.eqb_neq in E. set (half := (len / 2)%nat). assert (Hh : (half < len)%nat) by (apply Nat.div_lt; lia).
    destruct (nth_error_lt_Some l (first + half)) as (x & Ex); [lia|]. rewrite Ex. destruct (less x) eqn:Lx.
    + apply IH; auto; [lia..|]. intros i y Hi Ey. eapply mono; [exact Hi|exact Ex|exact Ey|exact Lx].
    + apply IH; [lia..| |].
      * intros i y Hi Ey. destruct (less y) eqn:Ly; auto. assert (less x = true) by (eapply (mono i (first + half)); [lia|exact Ey|exact Ex|exact Ly]). congruence.
      * intros i y Hi. apply H4. lia.
Qed.

Lemma upper_bound_spec : let k := upper_bound less l in
  (k <= length l)%nat /\ (forall i x, (i < k)%nat -> nth_error l i = Some x -> less x = false) /\
  (forall i x, (k <= i)%nat -> nth_error l i = Some x -> less x = true).
Proof.
  apply ub_loop_spec; try lia. intros i x Hi E. assert (nth_error l i <> None) by congruence. apply nth_error_Some in H. lia.
Qed.
End UB.

(** * Lengths and ranges *)
Lemma blen_app a b : blen (a ++ b) = blen a + blen b.
Proof. unfold blen. rewrite app_length. lia. Qed.
Lemma total_app a b : total (a ++ b) = total a + total b.
Proof. unfold total. rewrite concat_app. apply blen_app. Qed.
Lemma total_cons a b : total (a :: b) = blen a + total b.
Proof. unfold total. cbn [concat]. apply blen_app. Qed.
Lemma total_nil : total [] = 0.
Proof. reflexivity. Qed.

Lemma range_split (c : bytes) off a b : range c off (a + b) = range c off a ++ range c (off + a) b.
Proof.
  unfold range. rewrite (Nat.add_comm off a), <- skipn_skipn. generalize (skipn off c) as d. clear. intros d.
  revert d b. induction a as [|a IH]; intros d b; [reflexivity|]. destruct d as [|x d]; [now rewrite !firstn_nil|].
  cbn [Nat.add firstn skipn app]. now rewrite IH.
Qed.
Lemma range_O c off : range c off 0 = [].
Proof. reflexivity. Qed.
Lemma range_end c off n : (length c <= off)%nat -> range c off n = [].
Proof. intros H. unfold range. rewrite skipn_all2 by lia. apply firstn_nil. Qed.
Lemma range_mid (P b Q : bytes) off n : (length P <= off)%nat -> (off + n <= length P + length b)%nat ->
  range (P ++ b ++ Q) off n = range b (off - length P) n.
Proof.
  intros H1 H2. unfold range. rewrite skipn_app, skipn_all2 by lia. cbn [app]. rewrite skipn_app, firstn_app, skipn_length.
  replace (n - (length b - (off - length P)))%nat with 0%nat by lia. now rewrite firstn_O, app_nil_r.
Qed.
Lemma range_length (c : bytes) off n : length (range c off n) = Nat.min n (length c - off).
Proof. unfold range. now rewrite firstn_length, skipn_length. Qed.

Lemma total_firstn_S bs ci b : nth_error bs ci = Some b -> total (firstn (S ci) bs) = total (firstn ci bs) + blen b.
Proof. intros E. rewrite (firstn_S_snoc _ _ _ E), total_app, total_cons, total_nil. lia. Qed.
Lemma total_firstn_le bs ci : total (firstn ci bs) <= total bs.
Proof. rewrite <- (firstn_skipn ci bs) at 2. rewrite total_app. lia. Qed.
Lemma total_firstn_mono bs i j : (i <= j)%nat -> total (firstn i bs) <= total (firstn j bs).
Proof.
  intros H. replace (firstn i bs) with (firstn i (firstn j bs)); [apply total_firstn_le|]. rewrite firstn_firstn. f_equal. lia.
Qed.

(** * Layouts *)
Section Lay.
Context (truth : cid -> option bytes).

Lemma layout_length pos refs bs : layout truth pos refs bs -> length refs = length bs.
Proof. induction 1; cbn; auto. Qed.

Lemma layout_nth pos refs bs : layout truth pos refs bs -> forall ci r, nth_error refs ci = Some r ->
  exists b, nth_error bs ci = Some b /\ truth (cr_id r) = Some b /\ cr_off r = pos + total (firstn ci bs).
Proof.
  induction 1 as [|r rs b bs T L IH]; intros ci q E; [destruct ci; discriminate|]. destruct ci as [|ci].
  - inversion E; subst. exists b. repeat split; auto. cbn [firstn]. rewrite total_nil. lia.
  - cbn in E. destruct (IH ci q E) as (b' & E' & T' & O'). exists b'. repeat split; auto. cbn [firstn]. rewrite total_cons, O'. lia.
Qed.

Context (lists : cid -> option (list cref)).
Lemma ind_layout_head pos l bs : ind_layout truth lists pos l bs -> match l with [] => bs = [] | e :: _ => fst e = pos end.
Proof. destruct 1; reflexivity. Qed.

Lemma ind_layout_le pos l bs : ind_layout truth lists pos l bs -> forall e, In e l -> pos <= fst e.
Proof.
  induction 1 as [|pos id rest refs bs bs' E L I IH]; intros e He; [contradiction|]. destruct He as [<-|He]; [cbn; lia|].
  specialize (IH e He). lia.
Qed.

Lemma ind_layout_mono pos l bs : ind_layout truth lists pos l bs -> forall i j x y, (i <= j)%nat ->
  nth_error l i = Some x -> nth_error l j = Some y -> fst x <= fst y.
Proof.
  induction 1 as [|pos id rest refs bs bs' E L I IH]; intros i j x y Hij Ex Ey; [destruct i; discriminate|].
  destruct i as [|i].
  - inversion Ex; subst. destruct j as [|j]; [inversion Ey; subst; lia|]. cbn in Ey. apply nth_error_In in Ey.
    pose proof (ind_layout_le _ _ _ I y Ey). cbn [fst]. lia.
  - destruct j as [|j]; [lia|]. cbn in *. apply (IH i j); auto. lia.
Qed.
End Lay.

(** * The loop of Read *)
Section Read.
Context (truth : cid -> option bytes) (lists : cid -> option (list cref)) (fp : fproto) (fetch : nat -> option (list cref)).
Context (content : bytes) (d i : list bytes).
Context (Ld : layout truth 0 (fp_chunks fp) d) (Li : ind_layout truth lists (total d) (fp_ind fp) i).
Context (Hc : content = concat (d ++ i)) (Hs : fp_size fp = blen content) (H64 : blen content < two64).
(** Fetching a list fails or returns the list. *)
Context (Hf : forall k o id l, nth_error (fp_ind fp) k = Some (o, id) -> fetch k = Some l -> lists id = Some l).

(** List [li] has the chunks [refs] with contents [cur]. *)
Record at_list (li : nat) (refs : list cref) (pre cur post : list bytes) : Prop := mkat {
  at_all : d ++ i = pre ++ cur ++ post;
  at_off : list_offset fp li = total pre;
  at_refs : get_refs fp fetch li = Ok (Some refs) \/ (get_refs fp fetch li = Fail /\ exists k, (k < length (fp_ind fp))%nat /\ fetch k = None);
  at_lay : layout truth 0 refs cur;
  at_ind : ind_layout truth lists (total pre + total cur) (skipn li (fp_ind fp)) post;
  at_le : (li <= length (fp_ind fp))%nat
}.

Lemma at_direct : at_list 0 (fp_chunks fp) [] d i.
Proof. split; auto. apply Nat.le_0_l. Qed.

Lemma skipn_nth {A} (l : list A) n : match skipn n l with [] => nth_error l n = None | x :: r => nth_error l n = Some x /\ r = skipn (S n) l end.
Proof.
  revert l. induction n as [|n IH]; intros [|x l]; cbn; auto. specialize (IH l). destruct (skipn n l); auto.
Qed.

Lemma whole pre cur post : d ++ i = pre ++ cur ++ post -> content = concat pre ++ concat cur ++ concat post.
Proof. intros E. now rewrite Hc, E, !concat_app. Qed.
Lemma size_total pre cur post : d ++ i = pre ++ cur ++ post -> fp_size fp = total pre + total cur + total post.
Proof. intros E. rewrite Hs, (whole _ _ _ E), !blen_app. unfold total. lia. Qed.

Lemma next_offset li refs pre cur post : at_list li refs pre cur post -> list_offset fp (S li) = total pre + total cur.
Proof.
  intros [A O R L I Le]. cbn [list_offset]. pose proof (skipn_nth (fp_ind fp) li) as E. apply ind_layout_head in I as I'.
  destruct (skipn li (fp_ind fp)) as [|e rest].
  - rewrite E, (size_total _ _ _ A), I', total_nil. lia.
  - destruct E as (-> & _). exact I'.
Qed.

Lemma at_next li refs pre cur post : at_list li refs pre cur post -> (li < length (fp_ind fp))%nat ->
  exists refs' cur' post', post = cur' ++ post' /\ at_list (S li) refs' (pre ++ cur) cur' post'.
Proof.
  intros At Hl. pose proof (next_offset _ _ _ _ _ At) as No. destruct At as [A O R L I Le].
  pose proof (skipn_nth (fp_ind fp) li) as E. destruct (skipn li (fp_ind fp)) as [|e rest] eqn:Es.
  { apply nth_error_None in E. lia. }
  destruct E as (En & ->). inversion I as [|pos id rest' refs' bs bs' Hid Hlay Hrest]; subst.
  exists refs', bs, bs'. split; auto. split.
  - rewrite <- app_assoc. exact A.
  - rewrite No, total_app. reflexivity.
  - cbn [get_refs]. destruct (li =? length (fp_ind fp))%nat eqn:El; [apply Nat.eqb_eq in El; lia|].
    destruct (fetch li) as [l|] eqn:F; [left|right; split; [auto|eauto]]. pose proof (Hf _ _ _ _ En F). congruence.
  - exact Hlay.
  - rewrite total_app. exact Hrest.
  - exact Hl.
Qed.

Lemma at_end li refs pre cur post : at_list li refs pre cur post -> li = length (fp_ind fp) -> post = [].
Proof. intros [A O R L I Le] ->. rewrite skipn_all in I. now apply ind_layout_head in I. Qed.

Lemma at_exists : forall li, (li <= length (fp_ind fp))%nat -> exists refs pre cur post, at_list li refs pre cur post.
Proof.
  induction li as [|li IH]; intros Hl; [exists (fp_chunks fp), [], d, i; exact at_direct|].
  destruct IH as (refs & pre & cur & post & At); [lia|]. destruct (at_next _ _ _ _ _ At) as (r' & c' & p' & _ & At'); [lia|]. eauto 10.
Qed.

(** The current chunk inside the file. *)
Lemma at_chunk li refs pre cur post ci r : at_list li refs pre cur post -> nth_error refs ci = Some r ->
  exists b P Q, nth_error cur ci = Some b /\ truth (cr_id r) = Some b /\ cr_off r = total (firstn ci cur) /\
    content = P ++ b ++ Q /\ blen P = total pre + total (firstn ci cur).
Proof.
  intros [A O R L I Le] E. destruct (layout_nth _ _ _ _ L ci r E) as (b & Eb & T & Of).
  exists b, (concat pre ++ concat (firstn ci cur)), (concat (skipn (S ci) cur) ++ concat post). repeat split; auto.
  - rewrite (whole _ _ _ A). rewrite <- (firstn_skipn ci cur) at 1. pose proof (skipn_nth cur ci) as S. rewrite Eb in S.
    destruct (skipn ci cur) as [|x rest]; [discriminate|]. destruct S as (E' & ->). inversion E'; subst.
    rewrite concat_app. cbn [concat]. now rewrite <- !app_assoc.
  - rewrite blen_app. reflexivity.
Qed.

Lemma chunk_size_at li refs pre cur post ci r b : at_list li refs pre cur post -> nth_error refs ci = Some r -> nth_error cur ci = Some b ->
  chunk_size fp li ci refs = Ok (blen b).
Proof.
  intros At E Eb. unfold chunk_size. rewrite E. pose proof (at_chunk _ _ _ _ _ ci r At E) as (b' & P & Q & Eb' & T & Of & W & LP).
  assert (b' = b) by congruence. subst b'. pose proof (next_offset _ _ _ _ _ At) as No. destruct At as [A O R L I Le].
  assert (Z : blen P + blen b <= blen content) by (rewrite W, !blen_app; lia).
  pose proof (size_total _ _ _ A) as Sz. rewrite Hs in Sz.
  destruct (S ci <? length refs)%nat eqn:Lt.
  - apply Nat.ltb_lt in Lt. destruct (nth_error_lt_Some refs (S ci) Lt) as (r' & E'). rewrite E'.
    destruct (layout_nth _ _ _ _ L (S ci) r' E') as (b2 & _ & _ & Of'). rewrite (total_firstn_S _ _ _ Eb) in Of'.
    f_equal. unfold sub64, w64. rewrite Of', Of. lia.
  - apply Nat.ltb_ge in Lt. rewrite No, O. f_equal.
    assert (Ec : total cur = total (firstn (S ci) cur)).
    { rewrite firstn_all2; auto. rewrite <- (layout_length _ _ _ _ L). assert (nth_error refs ci <> None) by congruence. apply nth_error_Some in H. lia. }
    rewrite (total_firstn_S _ _ _ Eb) in Ec. unfold sub64, w64. rewrite Of. lia.
Qed.

Lemma advance_spec : forall fuel li refs pre cur post ci off, at_list li refs pre cur post -> get_refs fp fetch li = Ok (Some refs) -> (ci <= length refs)%nat ->
  off = total pre + total (firstn ci cur) ->
  match advance fp fetch fuel li ci refs off with
  | Ok (Some (li', ci', refs')) => exists pre' cur' post', at_list li' refs' pre' cur' post' /\ get_refs fp fetch li' = Ok (Some refs') /\ (ci' < length refs')%nat /\
      off = total pre' + total (firstn ci' cur')
  | Ok None => off = fp_size fp
  | Fail => exists k, (k < length (fp_ind fp))%nat /\ fetch k = None
  | UB => False
  | OutOfFuel => True
  end.
Proof.
  induction fuel as [|f IH]; intros li refs pre cur post ci off At G Hci Ho; cbn [advance]; auto.
  destruct (ci <? length refs)%nat eqn:Lt.
  - apply Nat.ltb_lt in Lt. eauto 10.
  - apply Nat.ltb_ge in Lt. assert (Ho' : off = total pre + total cur).
    { rewrite Ho. f_equal. rewrite firstn_all2; auto. destruct At as [A O R L I Le]. rewrite <- (layout_length _ _ _ _ L). lia. }
    destruct (Nat.eq_dec li (length (fp_ind fp))) as [e|n].
    + pose proof (at_end _ _ _ _ _ At e) as P. destruct At as [A O R L I Le]. cbn [get_refs]. rewrite e, Nat.eqb_refl. cbn [bind].
      assert (off = fp_size fp) by (rewrite (size_total _ _ _ A), P, total_nil; lia). rewrite (proj2 (N.eqb_eq _ _) H). exact H.
    + destruct (at_next _ _ _ _ _ At) as (r' & c' & p' & Ep & At'); [destruct At; lia|].
      destruct (at_refs _ _ _ _ _ At') as [G'|(G' & K)]; rewrite G'; cbn [bind]; [|exact K].
      eapply IH; [exact At'|exact G'|lia|]. rewrite total_app. cbn [firstn]. rewrite total_nil. lia.
Qed.

(** The bytes a list of requests stands for. *)
Definition req_good (q : cid * N * N) : Prop := let '(id, o, n) := q in exists b, truth id = Some b /\ o + n <= blen b.
Definition req_bytes (q : cid * N * N) : bytes :=
  let '(id, o, n) := q in match truth id with Some b => range b (N.to_nat o) (N.to_nat n) | None => [] end.

Lemma collect_spec : forall fuel li refs pre cur post ci b off nleft pleft acc,
  at_list li refs pre cur post -> get_refs fp fetch li = Ok (Some refs) -> nth_error cur ci = Some b ->
  total pre + total (firstn ci cur) <= off -> off <= total pre + total (firstn ci cur) + blen b -> nleft <= pleft ->
  match collect fp fetch fuel li ci refs off nleft pleft acc with
  | Ok (qs, nleft') => exists new, qs = acc ++ new /\ Forall req_good new /\
      concat (map req_bytes new) = range content (N.to_nat off) (N.to_nat nleft) /\ nleft' + blen (concat (map req_bytes new)) = nleft
  | Fail => exists k, (k < length (fp_ind fp))%nat /\ fetch k = None
  | UB => False
  | OutOfFuel => True
  end.
Proof.
  induction fuel as [|f IH]; intros li refs pre cur post ci b off nleft pleft acc At G Eb H1 H2 H3; cbn [collect]; auto.
  assert (Er : exists r, nth_error refs ci = Some r).
  { apply nth_error_lt_Some. rewrite (layout_length _ _ _ _ (at_lay _ _ _ _ _ At)). apply nth_error_Some. congruence. }
  destruct Er as (r & Er). rewrite Er. destruct (at_chunk _ _ _ _ _ ci r At Er) as (b' & P & Q & Eb' & T & Of & W & LP).
  assert (b' = b) by congruence. subst b'. clear Eb'. rewrite (chunk_size_at _ _ _ _ _ ci r b At Er Eb). cbn [bind].
  assert (Z : blen P + blen b <= blen content) by (rewrite W, !blen_app; lia).
  rewrite (at_off _ _ _ _ _ At), Of, <- LP in *. set (pos := blen P) in *.
  replace (w64 pos) with pos by (unfold w64; symmetry; apply N.mod_small; lia).
  set (coff := if pos <? off then off - pos else 0). assert (Ecoff : coff = off - pos) by (unfold coff; destruct (pos <? off) eqn:X; lia).
  replace (sub64 (blen b) coff) with (blen b - coff).
  2:{ unfold sub64, w64. rewrite (N.mod_small coff) by lia. replace (blen b + two64 - coff) with ((blen b - coff) + 1 * two64) by lia.
      rewrite N.mod_add by lia. symmetry. apply N.mod_small. lia. }
  set (avail := blen b - coff). set (rd := N.min avail nleft). set (pf := N.min avail pleft).
  replace (if rd <? nleft then nleft - rd else 0) with (nleft - rd) by (destruct (rd <? nleft) eqn:X; lia).
  replace (w64 (off + pf)) with (off + pf) by (unfold w64; symmetry; apply N.mod_small; lia).
  assert (Rg : req_good (cr_id r, coff, rd)) by (exists b; split; [exact T|lia]).
  assert (Rb : req_bytes (cr_id r, coff, rd) = range content (N.to_nat off) (N.to_nat rd)).
  { cbn [req_bytes]. rewrite T, W, range_mid; unfold blen in *; [f_equal; lia|lia..]. }
  assert (Rl : blen (range content (N.to_nat off) (N.to_nat rd)) = rd) by (unfold blen in *; rewrite range_length; lia).
  (* finishing here is right when no bytes remain or the file ends *)
  assert (Fin : nleft - rd = 0 \/ off + pf = blen content ->
     exists new, acc ++ [(cr_id r, coff, rd)] = acc ++ new /\ Forall req_good new /\
       concat (map req_bytes new) = range content (N.to_nat off) (N.to_nat nleft) /\ nleft - rd + blen (concat (map req_bytes new)) = nleft).
  { intros D. exists [(cr_id r, coff, rd)]. split; [reflexivity|]. split; [auto|]. cbn [map concat]. rewrite app_nil_r, Rb, Rl. split; [|lia].
    replace (N.to_nat nleft) with (N.to_nat rd + N.to_nat (nleft - rd))%nat by lia. rewrite range_split.
    destruct D as [D|D]; [rewrite D; cbn [N.to_nat]; now rewrite range_O, app_nil_r|].
    destruct (N.eq_dec rd nleft) as [e|n]; [rewrite e, N.sub_diag; cbn [N.to_nat]; now rewrite range_O, app_nil_r|].
    rewrite (range_end _ (N.to_nat off + _)); [now rewrite app_nil_r|]. unfold blen in *. lia. }
  destruct (pleft - pf =? 0) eqn:Ep; [apply N.eqb_eq in Ep; apply Fin; lia|]. apply N.eqb_neq in Ep.
  assert (Epf : pf = avail) by lia.
  assert (Adv := advance_spec (S (S (length (fp_ind fp)))) li refs pre cur post (S ci) (off + pf) At G).
  destruct (advance fp fetch (S (S (length (fp_ind fp)))) li (S ci) refs (off + pf)) as [[[[li' ci'] refs']|]| | |]; cbn [bind].
  - destruct Adv as (pre' & cur' & post' & At' & G' & Lt' & Off').
    { assert (nth_error refs ci <> None) by congruence. apply nth_error_Some in H. lia. }
    { rewrite (total_firstn_S _ _ _ Eb). lia. }
    destruct (nth_error_lt_Some refs' ci' Lt') as (r' & Er'). rewrite Er'.
    destruct (at_chunk _ _ _ _ _ ci' r' At' Er') as (b2 & P2 & Q2 & Eb2 & T2 & Of2 & W2 & LP2).
    assert (Z2 : blen P2 + blen b2 <= blen content) by (rewrite W2, !blen_app; lia).
    rewrite (at_off _ _ _ _ _ At'), Of2. replace (w64 (total pre' + total (firstn ci' cur'))) with (off + pf).
    2:{ rewrite <- Off'. unfold w64. symmetry. apply N.mod_small. lia. }
    rewrite N.eqb_refl.
    specialize (IH li' refs' pre' cur' post' ci' b2 (off + pf) (nleft - rd) (pleft - pf) (acc ++ [(cr_id r, coff, rd)]) At' G' Eb2).
    destruct (collect fp fetch f li' ci' refs' (off + pf) (nleft - rd) (pleft - pf) (acc ++ [(cr_id r, coff, rd)])) as [[qs nl]| | |].
    + destruct IH as (new & -> & Fn & Bn & Ln); [lia..|]. exists ((cr_id r, coff, rd) :: new). split; [now rewrite <- app_assoc|]. split; [auto|].
      cbn [map concat]. rewrite blen_app, Rb, Rl. split; [|lia].
      replace (N.to_nat nleft) with (N.to_nat rd + N.to_nat (nleft - rd))%nat by lia. rewrite range_split. f_equal. rewrite Bn.
      destruct (N.eq_dec (nleft - rd) 0) as [e|n]; [rewrite e; cbn [N.to_nat]; now rewrite !range_O|]. f_equal. lia.
    + apply IH; lia.
    + apply IH; lia.
    + exact I.
  - apply Fin. right. rewrite <- Hs. apply Adv; [|rewrite (total_firstn_S _ _ _ Eb); lia].
    assert (nth_error refs ci <> None) by congruence. apply nth_error_Some in H. lia.
  - apply Adv; [|rewrite (total_firstn_S _ _ _ Eb); lia]. assert (nth_error refs ci <> None) by congruence. apply nth_error_Some in H. lia.
  - apply Adv; [|rewrite (total_firstn_S _ _ _ Eb); lia]. assert (nth_error refs ci <> None) by congruence. apply nth_error_Some in H. lia.
  - exact I.
Qed.

Lemma find_list offset : offset < blen content ->
  let li := find_chunk_list fp offset in exists refs pre cur post, at_list li refs pre cur post /\ total pre <= offset /\ offset < total pre + total cur.
Proof.
  intros Ho. unfold find_chunk_list. rewrite Hs. destruct (blen content <=? offset) eqn:X; [lia|]. cbv zeta.
  assert (Mono : forall a b x y, (a <= b)%nat -> nth_error (fp_ind fp) a = Some x -> nth_error (fp_ind fp) b = Some y -> (offset <? fst x) = true -> (offset <? fst y) = true).
  { intros a b x y Hab Ex Ey Lx. pose proof (ind_layout_mono _ _ _ _ _ Li a b x y Hab Ex Ey). lia. }
  destruct (upper_bound_spec (fun e => offset <? fst e) (fp_ind fp) Mono) as (K1 & K2 & K3).
  set (li := upper_bound (fun e => offset <? fst e) (fp_ind fp)) in *.
  destruct (at_exists li K1) as (refs & pre & cur & post & At). exists refs, pre, cur, post. split; auto.
  pose proof (next_offset _ _ _ _ _ At) as No. pose proof (at_off _ _ _ _ _ At) as O. split.
  - rewrite <- O. destruct li as [|j]; [cbn; lia|]. cbn [list_offset]. destruct (nth_error_lt_Some (fp_ind fp) j) as (e & Ee); [lia|].
    rewrite Ee. specialize (K2 j e ltac:(lia) Ee). cbv beta in K2. lia.
  - rewrite <- No. cbn [list_offset]. destruct (nth_error (fp_ind fp) li) as [e|] eqn:Ee; [|rewrite Hs; lia].
    specialize (K3 li e ltac:(lia) Ee). cbv beta in K3. lia.
Qed.

Lemma find_in_list li refs pre cur post offset : at_list li refs pre cur post -> total pre <= offset -> offset < total pre + total cur ->
  exists ci b, find_chunk refs (list_offset fp li) offset = Some ci /\ nth_error cur ci = Some b /\
    total pre + total (firstn ci cur) <= offset /\ offset < total pre + total (firstn ci cur) + blen b.
Proof.
  intros At H1 H2. unfold find_chunk. rewrite (at_off _ _ _ _ _ At).
  assert (Z : total pre + total cur <= blen content).
  { pose proof (size_total _ _ _ (at_all _ _ _ _ _ At)) as S. rewrite Hs in S. lia. }
  replace (sub64 offset (total pre)) with (offset - total pre).
  2:{ unfold sub64, w64. rewrite (N.mod_small (total pre)) by lia. replace (offset + two64 - total pre) with ((offset - total pre) + 1 * two64) by lia.
      rewrite N.mod_add by lia. symmetry. apply N.mod_small. lia. }
  set (rel := offset - total pre). pose proof (at_lay _ _ _ _ _ At) as L.
  assert (Mono : forall a b x y, (a <= b)%nat -> nth_error refs a = Some x -> nth_error refs b = Some y -> (rel <? cr_off x) = true -> (rel <? cr_off y) = true).
  { intros a b x y Hab Ex Ey Lx. destruct (layout_nth _ _ _ _ L a x Ex) as (_ & _ & _ & Ox). destruct (layout_nth _ _ _ _ L b y Ey) as (_ & _ & _ & Oy).
    pose proof (total_firstn_mono cur a b Hab). lia. }
  destruct (upper_bound_spec (fun r => rel <? cr_off r) refs Mono) as (K1 & K2 & K3).
  set (k := upper_bound (fun r => rel <? cr_off r) refs) in *. pose proof (layout_length _ _ _ _ L) as Len.
  assert (Kp : k <> 0%nat).
  { intros e. destruct refs as [|r refs'].
    - destruct cur; [|discriminate]. rewrite total_nil in H2. lia.
    - specialize (K3 0%nat r ltac:(lia) eq_refl). cbv beta in K3. destruct (layout_nth _ _ _ _ L 0%nat r eq_refl) as (_ & _ & _ & Or). cbn [firstn] in Or.
      rewrite total_nil in Or. lia. }
  destruct k as [|ci] eqn:Ek; [congruence|]. exists ci.
  destruct (nth_error_lt_Some refs ci) as (r & Er); [lia|]. destruct (layout_nth _ _ _ _ L ci r Er) as (b & Eb & T & Or).
  exists b. split; auto. split; auto. specialize (K2 ci r ltac:(lia) Er). cbv beta in K2. split; [lia|].
  rewrite <- N.add_assoc, <- (total_firstn_S _ _ _ Eb).
  destruct (nth_error refs (S ci)) as [r'|] eqn:Er'.
  - specialize (K3 (S ci) r' ltac:(lia) Er'). cbv beta in K3. destruct (layout_nth _ _ _ _ L (S ci) r' Er') as (_ & _ & _ & Or'). lia.
  - apply nth_error_None in Er'. rewrite firstn_all2 by lia. lia.
Qed.

Lemma read_plan_spec offset size prefetch : size <= prefetch ->
  match read_plan fp fetch offset size prefetch with
  | Ok None => size = 0 \/ blen content <= offset
  | Ok (Some (qs, nleft)) => Forall req_good qs /\ concat (map req_bytes qs) = range content (N.to_nat offset) (N.to_nat size) /\
      nleft + blen (concat (map req_bytes qs)) = size
  | Fail => exists k, (k < length (fp_ind fp))%nat /\ fetch k = None
  | UB => False
  | OutOfFuel => True
  end.
Proof.
  intros Hp. unfold read_plan. destruct (size =? 0) eqn:Ez; [left; lia|]. cbv zeta.
  destruct (N.le_gt_cases (blen content) offset) as [Hge|Hlt].
  - assert (E : find_chunk_list fp offset = S (length (fp_ind fp))).
    { unfold find_chunk_list. rewrite Hs. destruct (blen content <=? offset) eqn:X; [reflexivity|lia]. }
    rewrite E. cbn [get_refs]. rewrite Nat.eqb_refl. cbn [bind]. right. exact Hge.
  - destruct (find_list offset Hlt) as (refs & pre & cur & post & At & O1 & O2). set (li := find_chunk_list fp offset) in *. clearbody li.
    destruct (at_refs _ _ _ _ _ At) as [G|(G & K)]; rewrite G; cbn [bind]; [|exact K].
    destruct (find_in_list _ _ _ _ _ _ At O1 O2) as (ci & b & Fc & Eb & P1 & P2). rewrite Fc.
    assert (Lt : (ci < length refs)%nat) by (rewrite (layout_length _ _ _ _ (at_lay _ _ _ _ _ At)); apply nth_error_Some; congruence).
    rewrite (proj2 (Nat.ltb_lt _ _) Lt).
    pose proof (collect_spec (S (all_chunks fp fetch)) li refs pre cur post ci b offset size prefetch [] At G Eb P1 ltac:(lia) Hp) as C.
    destruct (collect fp fetch (S (all_chunks fp fetch)) li ci refs offset size prefetch []) as [[qs nl]| | |]; cbn [bind]; auto.
    destruct C as (new & -> & C). exact C.
Qed.
End Read.

(** * Whatever the manifest contains *)
Section Any.
Context (fp : fproto) (fetch : nat -> option (list cref)).

Lemma sub_zero rd nleft : rd <= nleft -> (if rd <? nleft then nleft - rd else 0) = nleft - rd.
Proof. destruct (rd <? nleft) eqn:E; lia. Qed.

Definition asked (qs : list (cid * N * N)) : N := fold_right (fun q s => snd q + s) 0 qs.
Lemma asked_app a b : asked (a ++ b) = asked a + asked b.
Proof. induction a as [|x a IH]; [reflexivity|]. change (asked ((x :: a) ++ b)) with (snd x + asked (a ++ b)). change (asked (x :: a)) with (snd x + asked a). lia. Qed.

(** Chunks from list [li] on. *)
Definition tail_chunks (li : nat) : nat := list_sum (map (fetched_len fetch) (seq li (length (fp_ind fp) - li))).

Lemma tail_step li : (li < length (fp_ind fp))%nat -> tail_chunks li = (fetched_len fetch li + tail_chunks (S li))%nat.
Proof.
  intros H. unfold tail_chunks. replace (length (fp_ind fp) - li)%nat with (S (length (fp_ind fp) - S li)) by lia. reflexivity.
Qed.

Lemma advance_any : forall fuel li ci refs off, (li <= length (fp_ind fp))%nat -> (length (fp_ind fp) - li < fuel)%nat ->
  match advance fp fetch fuel li ci refs off with
  | Ok (Some (li', ci', refs')) => (li' <= length (fp_ind fp))%nat /\ (ci' < length refs')%nat /\
      (length refs' - ci' + tail_chunks li' <= length refs - ci + tail_chunks li)%nat
  | UB | OutOfFuel => False
  | _ => True
  end.
Proof.
  induction fuel as [|f IH]; intros li ci refs off Hl Hf; [lia|]. cbn [advance]. destruct (ci <? length refs)%nat eqn:Lt; [apply Nat.ltb_lt in Lt; auto|].
  cbn [get_refs]. destruct (li =? length (fp_ind fp))%nat eqn:El; cbn [bind].
  - destruct (off =? fp_size fp); auto.
  - apply Nat.eqb_neq in El. destruct (fetch li) as [l|] eqn:F; cbn [bind]; auto.
    specialize (IH (S li) 0%nat l off ltac:(lia) ltac:(lia)). destruct (advance fp fetch f (S li) 0 l off) as [[[[li' ci'] refs']|]| | |]; auto.
    destruct IH as (A & B & C). split; auto. split; auto. rewrite (tail_step li) by lia. unfold fetched_len. rewrite F. lia.
Qed.

Lemma collect_any : forall fuel li ci refs off nleft pleft acc, (li <= length (fp_ind fp))%nat -> (ci < length refs)%nat ->
  (length refs - ci + tail_chunks li < fuel)%nat ->
  match collect fp fetch fuel li ci refs off nleft pleft acc with
  | Ok (qs, nleft') => asked qs + nleft' = asked acc + nleft
  | UB | OutOfFuel => False
  | Fail => True
  end.
Proof.
  induction fuel as [|f IH]; intros li ci refs off nleft pleft acc Hl Hc Hf; [lia|]. cbn [collect].
  destruct (nth_error_lt_Some refs ci Hc) as (r & Er). rewrite Er.
  assert (Cs : exists cs, chunk_size fp li ci refs = Ok cs).
  { unfold chunk_size. rewrite Er. destruct (S ci <? length refs)%nat eqn:X; [|eauto]. apply Nat.ltb_lt in X.
    destruct (nth_error_lt_Some refs (S ci) X) as (r' & ->). eauto. }
  destruct Cs as (cs & ->). cbn [bind]. set (abs := w64 (list_offset fp li + cr_off r)). set (coff := if abs <? off then off - abs else 0).
  set (avail := sub64 cs coff). set (rd := N.min avail nleft). set (pf := N.min avail pleft). set (off' := w64 (off + pf)).
  rewrite sub_zero by lia.
  assert (As : asked (acc ++ [(cr_id r, coff, rd)]) + (nleft - rd) = asked acc + nleft).
  { rewrite asked_app. change (asked [(cr_id r, coff, rd)]) with (rd + 0). lia. }
  destruct (pleft - pf =? 0); auto.
  pose proof (advance_any (S (S (length (fp_ind fp)))) li (S ci) refs off' Hl ltac:(lia)) as Ad.
  destruct (advance fp fetch (S (S (length (fp_ind fp)))) li (S ci) refs off') as [[[[li' ci'] refs']|]| | |]; cbn [bind]; auto.
  destruct Ad as (A & B & C). destruct (nth_error_lt_Some refs' ci' B) as (r' & Er'). rewrite Er'. destruct (off' =? _); auto.
  specialize (IH li' ci' refs' off' (nleft - rd) (pleft - pf) (acc ++ [(cr_id r, coff, rd)]) A B ltac:(lia)).
  destruct (collect fp fetch f li' ci' refs' off' (nleft - rd) (pleft - pf) (acc ++ [(cr_id r, coff, rd)])) as [[qs nl]| | |]; auto. lia.
Qed.

Lemma ub_loop_le {A} (less : A -> bool) l : forall fuel first len, (first + len <= length l)%nat -> (ub_loop less l fuel first len <= length l)%nat.
Proof.
  induction fuel as [|f IH]; intros first len H; cbn [ub_loop]; [lia|]. destruct (len =? 0)%nat eqn:E; [lia|]. apply Nat.eqb_neq in E.
  assert (Hh : (len / 2 < len)%nat) by (apply Nat.div_lt; lia). destruct (nth_error l (first + len / 2)); [|lia].
  destruct (less a); apply IH; lia.
Qed.

Lemma get_refs_len li refs : get_refs fp fetch li = Ok (Some refs) -> (li <= length (fp_ind fp))%nat ->
  (length refs + tail_chunks li <= all_chunks fp fetch)%nat.
Proof.
  intros G Hl. unfold all_chunks. change (list_sum (map (fetched_len fetch) (seq 0 (length (fp_ind fp))))) with (list_sum (map (fetched_len fetch) (seq 0 (length (fp_ind fp))))).
  replace (seq 0 (length (fp_ind fp))) with (seq 0 (length (fp_ind fp) - 0)) by (f_equal; lia). fold (tail_chunks 0).
  destruct li as [|k]; cbn [get_refs] in G; [inversion G; lia|].
  destruct (k =? length (fp_ind fp))%nat; [discriminate|]. destruct (fetch k) as [l|] eqn:F; [|discriminate]. inversion G; subst.
  assert (M : forall a b, (a <= b <= length (fp_ind fp))%nat -> (tail_chunks b <= tail_chunks a)%nat).
  { intros a b Hab. remember (b - a)%nat as n eqn:En. revert a Hab En. induction n as [|n IH]; intros a Hab En; [replace b with a by lia; lia|].
    rewrite (tail_step a) by lia. specialize (IH (S a) ltac:(lia) ltac:(lia)). lia. }
  pose proof (M 0%nat k ltac:(lia)). rewrite (tail_step k) in H by lia. unfold fetched_len in H at 1. rewrite F in H. lia.
Qed.

Lemma read_plan_any offset size prefetch :
  match read_plan fp fetch offset size prefetch with
  | Ok (Some (qs, nleft)) => asked qs + nleft = size
  | UB | OutOfFuel => False
  | _ => True
  end.
Proof.
  unfold read_plan. destruct (size =? 0); auto. cbv zeta. set (li := find_chunk_list fp offset).
  destruct (get_refs fp fetch li) as [[refs|]| | |] eqn:G; cbn [bind]; auto.
  - assert (Hl : (li <= length (fp_ind fp))%nat).
    { unfold li, find_chunk_list in *. destruct (fp_size fp <=? offset).
      - cbn [get_refs] in G. rewrite Nat.eqb_refl in G. discriminate.
      - apply ub_loop_le. lia. }
    destruct (find_chunk refs (list_offset fp li) offset) as [ci|]; auto. destruct (ci <? length refs)%nat eqn:Lt; auto. apply Nat.ltb_lt in Lt.
    pose proof (get_refs_len li refs G Hl) as A.
    pose proof (collect_any (S (all_chunks fp fetch)) li ci refs offset size prefetch [] Hl Lt ltac:(lia)) as C.
    destruct (collect fp fetch (S (all_chunks fp fetch)) li ci refs offset size prefetch []) as [[qs nl]| | |]; cbn [bind]; auto.
  - destruct li as [|k]; cbn [get_refs] in G; [discriminate|]. destruct (k =? _)%nat; [discriminate|]. destruct (fetch k); discriminate.
  - destruct li as [|k]; cbn [get_refs] in G; [discriminate|]. destruct (k =? _)%nat; [discriminate|]. destruct (fetch k); discriminate.
Qed.
End Any.
