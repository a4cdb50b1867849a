(** Proofs about ModelStream.v *)
From Verif Require Import Base ListX ModelStream SpecStream.

Lemma faulty_spec f : reflect (reading_fails f) (faulty f).
Proof.
  unfold faulty, reading_fails. destruct (fault f) as [k|]; [|constructor; intros [k [E _]]; discriminate].
  destruct (Nat.leb k (length (content f))) eqn:E; constructor; [apply Nat.leb_le in E; eauto|]. apply Nat.leb_gt in E. intros [k' [E' H']]. injection E' as ->. lia.
Qed.

Lemma remaining_eq f : remaining f = firstn (readable f - pos f) (skipn (pos f) (content f)).
Proof.
  unfold remaining, readable. destruct (fault f) as [k|].
  - rewrite skipn_firstn_comm. destruct (Nat.le_ge_cases k (length (content f))) as [H|H].
    + rewrite (Nat.min_l k) by exact H. reflexivity.
    + rewrite (Nat.min_r k) by exact H. rewrite !firstn_all2; [reflexivity| |]; rewrite skipn_length; lia.
  - rewrite firstn_all2; [reflexivity|]. rewrite skipn_length. lia.
Qed.

Lemma fread_spec n f : at_eof f = false -> exists f1, fread n f = (firstn n (remaining f), f1) /\
  content f1 = content f /\ fault f1 = fault f /\ pos f1 = pos f + length (firstn n (remaining f)) /\
  remaining f1 = skipn n (remaining f) /\
  at_eof f1 = (if Nat.ltb (length (firstn n (remaining f))) n then negb (faulty f) else false).
Proof.
  intro He. unfold fread. rewrite He.
  assert (E : firstn (Nat.min n (readable f - pos f)) (skipn (pos f) (content f)) = firstn n (remaining f)) by (rewrite remaining_eq, firstn_firstn; reflexivity).
  rewrite E. eexists. split; [reflexivity|]. cbn [content fault pos at_eof]. split; [reflexivity|]. split; [reflexivity|]. split; [reflexivity|]. split; [|reflexivity].
  unfold remaining at 1. cbn [content fault pos]. rewrite Nat.add_comm, <- skipn_skipn. fold (remaining f).
  rewrite firstn_length. destruct (Nat.le_ge_cases n (length (remaining f))) as [H|H]; [rewrite Nat.min_l by exact H; reflexivity|].
  rewrite Nat.min_r by exact H. rewrite !skipn_all2 by lia. reflexivity.
Qed.

Lemma cut_nil n : cut n [] [].
Proof. split; [reflexivity|]. split; [constructor|]. intros i p E. destruct i; discriminate. Qed.
Lemma cut_cons n l ps : 0 < n -> n <= length l -> cut n (skipn n l) ps -> cut n l (firstn n l :: ps).
Proof.
  intros Hn Hl (H1 & H2 & H3). split; [|split].
  - cbn [concat]. rewrite H1. apply firstn_skipn.
  - constructor; [rewrite firstn_length; lia|exact H2].
  - intros [|i] p E Hi; [injection E as <-; rewrite firstn_length; lia|]. apply (H3 i p E). cbn [length] in Hi. lia.
Qed.
Lemma cut_one n l : 0 < length l <= n -> cut n l [l].
Proof. intro H. split; [apply app_nil_r|]. split; [repeat constructor; lia|]. intros [|i] p E Hi; cbn in *; [lia|destruct i; discriminate]. Qed.

Lemma app_inj_len {A} (a b c d : list A) : length a = length c -> a ++ b = c ++ d -> a = c /\ b = d.
Proof. revert c. induction a as [|x a IH]; intros [|y c] L E; cbn in *; try lia; [auto|]. injection E as -> E. destruct (IH c ltac:(lia) E). subst. auto. Qed.

Lemma cut_unique n l ps ps' : cut n l ps -> cut n l ps' -> ps = ps'.
Proof.
  revert l ps'. induction ps as [|p ps IH]; intros l ps' (A1 & A2 & A3) (B1 & B2 & B3); rewrite <- A1 in B1; clear A1 l.
  - destruct ps' as [|q ps']; [reflexivity|]. inversion B2 as [|? ? Hq]; subst. cbn in B1. apply app_eq_nil in B1. destruct B1 as [-> _]. cbn in Hq. lia.
  - inversion A2 as [|? ? Hp A2']; subst. destruct ps' as [|q ps']; [symmetry in B1; cbn in B1; apply app_eq_nil in B1; destruct B1 as [-> _]; cbn in Hp; lia|].
    inversion B2 as [|? ? Hq B2']; subst. cbn [concat] in B1. pose proof (f_equal (@length _) B1) as L. rewrite !app_length in L.
    assert (Hpq : q = p /\ concat ps' = concat ps).
    { apply app_inj_len; [|exact B1]. destruct ps as [|p2 ps]; destruct ps' as [|q2 ps']; cbn [concat] in L; try rewrite !app_length in L; cbn [length] in L.
      - lia.
      - specialize (B3 0 q eq_refl ltac:(cbn; lia)). inversion B2' as [|? ? Hq2]; subst. lia.
      - specialize (A3 0 p eq_refl ltac:(cbn; lia)). inversion A2' as [|? ? Hp2]; subst. lia.
      - rewrite (A3 0 p eq_refl), (B3 0 q eq_refl); cbn; lia. }
    destruct Hpq as [-> Hc]. f_equal. apply (IH (concat ps)).
    + split; [reflexivity|]. split; [exact A2'|]. intros i x Hx Hi. apply (A3 (S i) x Hx). cbn [length]. lia.
    + split; [exact Hc|]. split; [exact B2'|]. intros i x Hx Hi. apply (B3 (S i) x Hx). cbn [length]. lia.
Qed.

(** ** A handler that leaves the file alone *)
Definition ending {H} (h : H -> option bytes -> bool * H) (s : H) (all : list (option bytes)) (st : status) (r : result H) : Prop :=
  (r_status r = st /\ r_calls r = all /\ accepts h s all (r_state r)) \/
  (exists before c after s1, all = before ++ c :: after /\ r_status r = Rejected /\ r_calls r = before ++ [c] /\ accepts h s before s1 /\ h s1 c = (false, r_state r)).

Lemma ending_cons {H} (h : H -> option bytes -> bool * H) s c s1 all st r : h s c = (true, s1) -> ending h s1 all st r -> ending h s (c :: all) st (add_call c r).
Proof.
  intros E [(A & B & C)|(bf & x & af & s2 & A & B & C & D & F)]; [left|right].
  - cbn. split; [exact A|]. split; [congruence|]. econstructor; eassumption.
  - exists (c :: bf), x, af, s2. cbn. split; [congruence|]. split; [exact B|]. split; [congruence|]. split; [econstructor; eassumption|exact F].
Qed.

Lemma ending_rejected {H} (h : H -> option bytes -> bool * H) s c s1 after st f : h s c = (false, s1) -> ending h s (c :: after) st (mkr Rejected s1 f [c]).
Proof. intro E. right. exists [], c, after, s. cbn. repeat split; auto. constructor. Qed.

Lemma read_loop_apart {H} n (h : H -> option bytes -> bool * H) : 0 < n -> forall fuel s f, at_eof f = false -> length (remaining f) < fuel ->
  exists r ps, read_loop fuel n (apart h) s f = Ok r /\ cut n (remaining f) ps /\
    ending h s (map Some ps ++ (if faulty f then [] else [None])) (if faulty f then Broken else Done) r.
Proof.
  intro Hn. induction fuel as [|k IH]; intros s f He Hk; [lia|]. cbn [read_loop].
  destruct (fread_spec n f He) as (f1 & -> & Hc & Hf & Hp & Hr & Heof).
  assert (Hff : faulty f1 = faulty f) by (unfold faulty; rewrite Hc, Hf; reflexivity).
  destruct (Nat.lt_ge_cases (length (remaining f)) n) as [Hs|Hl].
  - (* the end *)
    assert (Hd : firstn n (remaining f) = remaining f) by (apply firstn_all2; lia). rewrite Hd in *.
    replace (Nat.eqb (length (remaining f)) n) with false by (symmetry; apply Nat.eqb_neq; lia). cbn [negb andb].
    rewrite (proj2 (Nat.ltb_lt _ _) Hs) in Heof. rewrite Heof.
    destruct (remaining f) as [|b l] eqn:El.
    + destruct (faulty f); cbn [negb].
      * eexists _, []. split; [reflexivity|]. split; [apply cut_nil|]. left. cbn. repeat split; auto. constructor.
      * unfold apart at 1. destruct (h s None) as [[|] s1] eqn:Eh; eexists _, []; (split; [reflexivity|]); (split; [apply cut_nil|]); cbn [map app].
        -- left. cbn. repeat split; auto. econstructor; [exact Eh|constructor].
        -- apply ending_rejected. exact Eh.
    + rewrite <- El in *. unfold apart at 1. destruct (h s (Some (remaining f))) as [[|] s1] eqn:Eh; cbn [negb].
      * destruct (faulty f); cbn [negb].
        -- eexists _, [remaining f]. split; [reflexivity|]. split; [apply cut_one; rewrite El in *; cbn [length] in *; lia|]. cbn [map app].
           eapply ending_cons; [exact Eh|]. left. cbn. repeat split; auto. constructor.
        -- unfold apart at 1. destruct (h s1 None) as [[|] s2] eqn:Eh2; eexists _, [remaining f]; (split; [reflexivity|]); (split; [apply cut_one; rewrite El in *; cbn [length] in *; lia|]); cbn [map app]; (eapply ending_cons; [exact Eh|]).
           ++ left. cbn. repeat split; auto. econstructor; [exact Eh2|constructor].
           ++ apply ending_rejected. exact Eh2.
      * eexists _, [remaining f]. split; [reflexivity|]. split; [apply cut_one; rewrite El in *; cbn [length] in *; lia|]. cbn [map app].
        apply ending_rejected. exact Eh.
  - (* a full buffer *)
    assert (Hd : length (firstn n (remaining f)) = n) by (rewrite firstn_length; lia). rewrite Hd, Nat.eqb_refl. cbn [negb andb].
    rewrite Hd, Nat.ltb_irrefl in Heof.
    destruct (IH s f1 Heof ltac:(rewrite Hr, skipn_length; lia)) as (_ & ps0 & _ & Hps0 & _).
    destruct (firstn n (remaining f)) as [|b l] eqn:El; [cbn in Hd; lia|]. rewrite <- El in *.
    unfold apart at 1. match goal with |- context [h s ?d] => destruct (h s d) as [[|] s1] eqn:Eh end; cbn [negb].
    + destruct (IH s1 f1 Heof ltac:(rewrite Hr, skipn_length; lia)) as (r & ps & E & Hps & Hend). rewrite E. cbn.
      eexists _, (firstn n (remaining f) :: ps). split; [reflexivity|]. split; [apply cut_cons; [exact Hn|exact Hl|rewrite <- Hr; exact Hps]|].
      cbn [map app]. eapply ending_cons; [exact Eh|]. rewrite Hff in Hend. exact Hend.
    + eexists _, (firstn n (remaining f) :: ps0). split; [reflexivity|]. split; [apply cut_cons; [exact Hn|exact Hl|rewrite <- Hr; exact Hps0]|].
      cbn [map app]. apply ending_rejected. exact Eh.
Qed.

(** ** Any handler *)
Lemma fread_length n f d f1 : fread n f = (d, f1) -> length d <= n.
Proof.
  unfold fread. destruct (at_eof f); intro E; injection E as <- <-; [cbn; lia|]. rewrite firstn_length. lia.
Qed.

Definition shaped {H} (n : nat) (r : result H) : Prop := exists ps tail,
  r_calls r = map Some ps ++ tail /\ Forall (fun p => 0 < length p <= n) ps /\
  (forall i p, nth_error ps i = Some p -> S i < length ps -> length p = n) /\
  (tail = [] \/ tail = [None]) /\ (r_status r = Done -> tail = [None]) /\ (r_status r = Broken -> tail = []) /\ r_status r <> EmptyBuffer.

Lemma read_loop_any {H} n (h : handler H) : 0 < n -> forall fuel s f r, read_loop fuel n h s f = Ok r -> shaped n r.
Proof.
  intro Hn. induction fuel as [|k IH]; intros s f r E; [discriminate|]. cbn [read_loop] in E.
  destruct (fread n f) as [d f1] eqn:Ef. pose proof (fread_length _ _ _ _ Ef) as Hd.
  assert (Hempty : shaped n (mkr Broken s f1 [])).
  { exists [], []. cbn. repeat split; auto; try discriminate. intros i p Ep. destruct i; discriminate. }
  assert (Hnone : forall ok s2 f2, shaped n (@mkr H (if ok : bool then Done else Rejected) s2 f2 [None])).
  { intros ok s2 f2. exists [], [None]. cbn. repeat split; auto; try (destruct ok; discriminate). intros i p Ep. destruct i; discriminate. }
  destruct d as [|b l].
  - replace (Nat.eqb (@length byte []) n) with false in E by (symmetry; apply Nat.eqb_neq; cbn; lia). cbn [negb andb] in E.
    destruct (at_eof f1); [|injection E as <-; exact Hempty].
    destruct (h s None f1) as [[ok s2] f2]. injection E as <-. apply Hnone.
  - remember (b :: l) as d eqn:Ed. assert (Hpos : 0 < length d) by (subst d; cbn; lia). clear Ed b l.
    match type of E with context [h s ?c f1] => destruct (h s c f1) as [[ok s1] f2] end. destruct ok; cbn [negb] in E.
    2:{ injection E as <-. exists [d], []. cbn. repeat split; auto; try discriminate. intros [|i] p Ep Hi; [cbn in Hi; lia|destruct i; discriminate]. }
    destruct (Nat.eqb_spec (length d) n) as [Hl|Hl]; cbn [negb andb] in E.
    + destruct (read_loop k n h s1 f2) as [r1| | |] eqn:E1; try discriminate. cbn in E. injection E as <-.
      destruct (IH _ _ _ E1) as (ps & tail & A & B & C & D). exists (d :: ps), tail. cbn. split; [congruence|]. split; [constructor; [lia|exact B]|].
      split; [|exact D]. intros [|i] p Ep Hi; [injection Ep as <-; exact Hl|]. apply (C i p Ep). lia.
    + assert (Hone : forall tail st s2 f3, (tail = [] \/ tail = [None]) -> (st = Done -> tail = [None]) -> (st = Broken -> tail = []) -> st <> EmptyBuffer -> shaped n (add_call (Some d) (@mkr H st s2 f3 tail))).
      { intros tail st s2 f3 T1 T2 T3 T4. exists [d], tail. cbn. split; [reflexivity|]. split; [constructor; [lia|constructor]|].
        split; [|repeat split; auto]. intros [|i] p Ep Hi; [cbn in Hi; lia|destruct i; discriminate]. }
      destruct (at_eof f1).
      * destruct (h s1 None f2) as [[ok s2] f3]. injection E as <-. apply Hone; [right; reflexivity|reflexivity| |]; destruct ok; discriminate.
      * injection E as <-. apply Hone; auto; discriminate.
Qed.

Lemma read_loop_ends {H} n (h : handler H) : 0 < n ->
  (forall s c f, let f1 := snd (h s c f) in content f1 = content f /\ pos f <= pos f1) ->
  forall fuel s f, length (content f) - pos f < fuel -> exists r, read_loop fuel n h s f = Ok r.
Proof.
  intros Hn Hh. induction fuel as [|k IH]; intros s f Hk; [lia|]. cbn [read_loop].
  assert (Hf : exists d f1, fread n f = (d, f1) /\ content f1 = content f /\ pos f1 = pos f + length d /\ (d <> [] -> length d <= length (content f) - pos f)).
  { unfold fread. destruct (at_eof f).
    - eexists _, _. split; [reflexivity|]. split; [reflexivity|]. split; [cbn; lia|]. congruence.
    - eexists _, _. split; [reflexivity|]. cbn [content pos]. split; [reflexivity|]. split; [reflexivity|]. intros _. rewrite firstn_length, skipn_length. lia. }
  destruct Hf as (d & f1 & -> & Hc & Hp & Hd). destruct d as [|b l].
  - replace (Nat.eqb (@length byte []) n) with false by (symmetry; apply Nat.eqb_neq; cbn; lia). cbn [negb andb]. eexists; reflexivity.
  - specialize (Hd ltac:(discriminate)). remember (b :: l) as d eqn:Ed. assert (Hpos : 0 < length d) by (subst d; cbn; lia). clear Ed b l.
    match goal with |- context [h s ?c f1] => pose proof (Hh s c f1) as Hs; destruct (h s c f1) as [[ok s1] f2] end. cbn in Hs. destruct Hs as [Hs1 Hs2].
    destruct ok; cbn [negb]; [|eexists; reflexivity]. destruct (Nat.eqb (length d) n); cbn [negb andb]; [|eexists; reflexivity].
    destruct (IH s1 f2) as [r ->]; [rewrite Hs1, Hc; lia|]. eexists; reflexivity.
Qed.

(** ** Writing *)
Definition whole (o : ofile) : bytes := disk o ++ pending o.
Lemma write_loop_gives {W} (h : W -> option bytes * W) b s ps st s' : gives h s ps st s' -> forall fuel o, length ps < fuel ->
  length (pending o) <= room o ->
  exists st1 s1 o1, write_loop fuel b h s o = Ok (st1, s1, o1) /\
    ((st1 = st /\ s1 = s' /\ whole o1 = whole o ++ concat ps /\ length (pending o1) <= room o1 \/
      st1 = st /\ s1 = s' /\ whole o1 = whole o ++ concat ps /\ room o < length (pending o) + length (concat ps)) \/
     (st1 = Broken /\ room o < length (pending o) + length (concat ps) /\ exists lost, whole o ++ concat ps = whole o1 ++ lost)).
Proof.
  intros G. revert b.
  assert (HH : forall b fuel o, length ps < fuel -> exists st1 s1 o1, write_loop fuel b h s o = Ok (st1, s1, o1) /\
    ((st1 = st /\ s1 = s' /\ whole o1 = whole o ++ concat ps /\ (length (pending o) + length (concat ps) <= room o -> length (pending o1) <= room o1)) \/
     (st1 = Broken /\ room o < length (pending o) + length (concat ps) /\ exists lost, whole o ++ concat ps = whole o1 ++ lost))).
  { induction G as [s s1 E|s s1 E|s p s1 l st s2 Hp E _ IH]; intros b fuel o Hf; destruct fuel as [|k]; try (cbn in Hf; lia); cbn [write_loop]; rewrite E.
    - exists Done, s1, o. split; [reflexivity|]. left. cbn. rewrite app_nil_r. repeat split; auto. lia.
    - exists Rejected, s1, o. split; [reflexivity|]. left. cbn. rewrite app_nil_r. repeat split; auto. lia.
    - destruct p as [|x p]; [congruence|]. remember (x :: p) as d eqn:Ed. clear Ed x p Hp. cbn [concat length] in *. rewrite app_length in *.
      unfold fwrite. cbn [pending]. destruct (Nat.ltb (length (pending o ++ d)) b).
      + destruct (IH b k (mko (disk o) (pending o ++ d) (room o)) ltac:(lia)) as (st1 & s3 & o1 & E1 & H). rewrite E1. exists st1, s3, o1. split; [reflexivity|].
        unfold whole in *. cbn [disk pending room] in H. rewrite app_length, <- !app_assoc in H. rewrite <- !app_assoc.
        destruct H as [(A & B & C & D)|(A & B & C)]; [left|right].
        * repeat split; auto. intro. apply D. lia.
        * split; [exact A|]. split; [lia|exact C].
      + unfold flush. cbn [disk pending room]. rewrite app_length. destruct (Nat.leb (length (pending o) + length d) (room o)) eqn:Hle.
        * apply Nat.leb_le in Hle. rewrite firstn_all2 by (rewrite app_length; lia).
          destruct (IH b k (mko (disk o ++ pending o ++ d) [] (room o - (length (pending o) + length d))) ltac:(lia)) as (st1 & s3 & o1 & E1 & H). rewrite E1. exists st1, s3, o1. split; [reflexivity|].
          unfold whole in *. cbn [disk pending room length] in H. rewrite app_nil_r, <- !app_assoc in H. rewrite <- !app_assoc.
          destruct H as [(A & B & C & D)|(A & B & C)]; [left|right].
          -- repeat split; auto. intro. apply D. lia.
          -- split; [exact A|]. split; [lia|exact C].
        * apply Nat.leb_gt in Hle. eexists Broken, s1, _. split; [reflexivity|]. right. split; [reflexivity|]. split; [lia|].
          exists (skipn (room o) (pending o ++ d) ++ concat l). unfold whole. cbn [disk pending]. rewrite app_nil_r, <- !app_assoc. f_equal.
          rewrite (app_assoc (firstn _ _)), firstn_skipn, <- app_assoc. reflexivity. }
  intros b fuel o Hf Hr. destruct (HH b fuel o Hf) as (st1 & s1 & o1 & E & [(A & B & C & D)|H]); exists st1, s1, o1; (split; [exact E|]); [left|right; exact H].
  destruct (Nat.le_gt_cases (length (pending o) + length (concat ps)) (room o)) as [L|L]; [left|right]; repeat split; auto.
Qed.

Lemma fclose_fits o : length (pending o) <= room o -> fclose o = (true, mko (whole o) [] (room o - length (pending o))).
Proof. intro H. unfold fclose, flush, whole. rewrite (proj2 (Nat.leb_le _ _) H), firstn_all2 by exact H. reflexivity. Qed.

Lemma fwrite_ok b d o : length (pending o ++ d) <= room o -> exists o1, fwrite b d o = (true, o1) /\ whole o1 = whole o ++ d /\ length (pending o1) <= room o1.
Proof.
  intro H. unfold fwrite. cbn [pending]. destruct (Nat.ltb (length (pending o ++ d)) b).
  - eexists. split; [reflexivity|]. unfold whole. cbn [disk pending room]. split; [apply app_assoc|exact H].
  - unfold flush. cbn [pending room disk]. rewrite (proj2 (Nat.leb_le _ _) H), firstn_all2 by exact H.
    eexists. split; [reflexivity|]. unfold whole. cbn [disk pending room length]. rewrite app_nil_r. split; [apply app_assoc|lia].
Qed.

(** ** Reading a whole file *)
Lemma fread_opened n x : fread n (opened x) = (firstn n (remaining (opened x)), snd (fread n (opened x))).
Proof. destruct (fread_spec n (opened x) eq_refl) as (f1 & -> & _). reflexivity. Qed.
