(** A small codec with the properties that [laws] asks of zstd: a byte b is [1; b], the end
    of a frame is [0].  Used in the examples of C55. *)
From Verif Require Import Base ListX SpecZstd.
Local Notation str := (list N).

Fixpoint tdec (w : str) : str * dstatus :=
  match w with
  | [] => ([], Open)
  | 0%N :: r => ([], Done r)
  | 1%N :: [] => ([], Open)
  | 1%N :: b :: r => let '(x, s) := tdec r in (b :: x, s)
  | _ => ([], Bad)
  end.
Definition tenc (x : str) : str := flat_map (fun b => [1%N; b]) x.
Definition tcomp (c : str) (m : mode) (i : str) (n : nat) (o : str) (f : bool) (c2 : str) : Prop :=
  n = length i /\
  match m with
  | MContinue => o = [] /\ c2 = c ++ i /\ f = false
  | MFlush => o = tenc (c ++ i) /\ c2 = [] /\ f = true
  | MEnd => o = tenc (c ++ i) ++ [0%N] /\ c2 = [] /\ f = true
  end.
Inductive tstate : Type := T0 | T1 | TEnd.
Fixpoint tdecomp (d : tstate) (i : str) (room : nat) : option (nat * str * bool * tstate) :=
  match i with
  | [] => Some (0%nat, [], match d with TEnd => true | _ => false end, d)
  | b :: i2 =>
      match d, room with
      | TEnd, _ => None
      | T1, O => Some (0%nat, [], false, d)
      | T1, S room2 => match tdecomp T0 i2 room2 with Some (n, o, e, d2) => Some (S n, b :: o, e, d2) | None => None end
      | T0, _ =>
          if (b =? 0)%N then Some (1%nat, [], true, TEnd)
          else if (b =? 1)%N then match tdecomp T1 i2 room with Some (n, o, e, d2) => Some (S n, o, e, d2) | None => None end
          else None
      end
  end.
Definition toy : codec := mkcodec tdec str [] tcomp tstate T0 tdecomp.

Lemma tdec_enc x : forall w, tdec (tenc x ++ w) = (x ++ fst (tdec w), snd (tdec w)).
Proof. induction x as [|b x IH]; intros w; [cbn; destruct (tdec w); reflexivity|]. cbn [tenc flat_map app tdec]. fold (tenc x). rewrite IH. reflexivity. Qed.
Lemma two_step (P : str -> Prop) : P [] -> (forall b, P [b]) -> (forall a b r, P r -> P (a :: b :: r)) -> forall w, P w.
Proof. intros A B C. fix IH 1. intros [|a [|b r]]; [exact A|apply B|]. apply C. apply IH. Qed.
Lemma tdec_case (P : str -> Prop) : P [] -> (forall r, P (0%N :: r)) -> P [1%N] -> (forall b r, P r -> P (1%N :: b :: r)) ->
  (forall a r, a <> 0%N -> a <> 1%N -> P (a :: r)) -> forall w, P w.
Proof.
  intros A B C D E. refine (two_step P A _ _).
  - intros b. destruct (N.eq_dec b 0) as [->|N0]; [apply B|]. destruct (N.eq_dec b 1) as [->|N1]; [apply C|]. apply E; assumption.
  - intros a b r H. destruct (N.eq_dec a 0) as [->|N0]; [apply B|]. destruct (N.eq_dec a 1) as [->|N1]; [apply D, H|]. apply E; assumption.
Qed.
Lemma tdec_other a r : a <> 0%N -> a <> 1%N -> tdec (a :: r) = ([], Bad).
Proof. intros A B. cbn [tdec]. destruct a as [|[p|p|]]; try reflexivity; contradiction. Qed.

Lemma tdec_app w : forall u,
  match snd (tdec w) with
  | Done r => tdec (w ++ u) = (fst (tdec w), Done (r ++ u))
  | Open => exists y, fst (tdec (w ++ u)) = fst (tdec w) ++ y
  | Bad => snd (tdec (w ++ u)) = Bad
  end.
Proof.
  revert w. refine (tdec_case _ _ _ _ _ _).
  - intros u. cbn. eauto.
  - intros r u. reflexivity.
  - intros u. cbn. eauto.
  - intros b r IH u. specialize (IH u). cbn [app tdec]. destruct (tdec r) as (x & s). cbn [fst snd] in *. destruct (tdec (r ++ u)) as (x2 & s2). cbn [fst snd] in *. destruct s as [|q|].
    + destruct IH as (y & ->). exists y. reflexivity.
    + injection IH as -> ->. reflexivity.
    + exact IH.
  - intros a r A B u. cbn [app]. rewrite !tdec_other by assumption. reflexivity.
Qed.

(** What the decompressor has seen. *)
Definition tinv (d : tstate) (v y : str) : Prop := v = tenc y ++ match d with T0 => [] | T1 => [1%N] | TEnd => [0%N] end.
Lemma tenc_app a b : tenc (a ++ b) = tenc a ++ tenc b.
Proof. unfold tenc. apply flat_map_app. Qed.

Lemma tdecomp_spec : forall i d room later x, match d with T0 => tdec (i ++ later) | T1 => tdec (1%N :: i ++ later) | TEnd => tdec (0%N :: i ++ later) end = (x, Done []) ->
  exists n o e d2, tdecomp d i room = Some (n, o, e, d2) /\ (n <= length i)%nat /\ (length o <= room)%nat /\
    (match d with T0 => [] | T1 => [1%N] | TEnd => [0%N] end) ++ firstn n i = tenc o ++ match d2 with T0 => [] | T1 => [1%N] | TEnd => [0%N] end /\
    (exists z, x = o ++ z) /\ (e = true <-> d2 = TEnd) /\ (e = false -> (length o < room)%nat -> n = length i).
Proof.
  induction i as [|b i IH]; intros d room later x E.
  - exists 0%nat, [], (match d with TEnd => true | _ => false end), d. cbn. repeat split; auto; try lia.
    + now rewrite app_nil_r.
    + eauto.
    + destruct d; auto; discriminate.
    + intros ->. reflexivity.
  - destruct d.
    + destruct (N.eq_dec b 0) as [->|N0]; [|destruct (N.eq_dec b 1) as [->|N1]].
      * cbn in E. injection E as <- _. exists 1%nat, [], true, TEnd. cbn. repeat split; auto; try lia; try discriminate. eauto.
      * destruct (IH T1 room later x E) as (n & o & e & d2 & R & Ln & Lo & V & Z & Ee & Ne). exists (S n), o, e, d2. cbn [tdecomp N.eqb Pos.eqb]. rewrite R. split; [reflexivity|].
        split; [cbn; lia|]. split; [exact Lo|]. split; [exact V|]. split; [exact Z|]. split; [exact Ee|]. intros A B. rewrite (Ne A B). reflexivity.
      * cbn [app] in E. rewrite tdec_other in E by assumption. discriminate.
    + destruct room as [|room].
      { exists 0%nat, [], false, T1. cbn. repeat split; auto; try lia; try discriminate. eauto. }
      cbn [app tdec] in E. destruct (tdec (i ++ later)) as (x1 & s1) eqn:E1. injection E as <- ->.
      destruct (IH T0 room later x1 E1) as (n & o & e & d2 & R & Ln & Lo & V & (z & Z) & Ee & Ne). exists (S n), (b :: o), e, d2. cbn [tdecomp]. rewrite R. split; [reflexivity|].
      split; [cbn; lia|]. split; [cbn; lia|]. split; [cbn in V |- *; now rewrite V|]. split; [exists z; now rewrite Z|]. split; [exact Ee|]. intros A B. cbn in B. rewrite (Ne A) by lia. reflexivity.
    + cbn in E. injection E as _ E. discriminate.
Qed.

Lemma tdec_v y d : tdec (tenc y ++ match d with T0 => [] | T1 => [1%N] | TEnd => [0%N] end) = (y, match d with TEnd => Done [] | _ => Open end).
Proof. rewrite tdec_enc. destruct d; cbn; now rewrite app_nil_r. Qed.
Lemma toy_laws : laws toy.
Proof.
  unshelve econstructor.
  - intros c x w. exact (exists y, w = tenc y /\ x = y ++ c).
  - exact (fun c => c = []).
  - exact (fun _ _ _ => 0%nat).
  - exact tinv.
  - reflexivity.
  - intros w x r u E. pose proof (tdec_app w u) as H. cbn [dec toy] in *. rewrite E in H. exact H.
  - intros w x u E. pose proof (tdec_app w u) as H. cbn [dec toy] in *. rewrite E in H. exact H.
  - intros w x u E. pose proof (tdec_app w u) as H. cbn [dec toy] in *. rewrite E in H. exact H.
  - exists []. auto.
  - intros c x w (y & -> & ->). exists c. cbn [dec toy]. rewrite <- (app_nil_r (tenc y)), tdec_enc. cbn. now rewrite app_nil_r.
  - intros c x w m i n o f c2 (y & -> & ->) (-> & C). split; [lia|]. rewrite firstn_all. destruct m; destruct C as (-> & -> & ->).
    + right. exists y. rewrite app_nil_r, app_assoc. auto.
    + right. exists (y ++ c ++ i). rewrite app_nil_r, <- app_assoc, <- tenc_app. auto.
    + left. auto.
  - intros c x w i n o c2 (y & -> & ->) (-> & -> & _). split; [reflexivity|]. cbn [dec toy]. rewrite <- tenc_app, <- (app_nil_r (tenc _)), tdec_enc. cbn. now rewrite app_nil_r, <- app_assoc.
  - intros c x w i n o c2 (y & -> & ->) (-> & -> & _). split; [reflexivity|]. cbn [dec toy]. rewrite app_assoc, <- tenc_app, tdec_enc. cbn. now rewrite app_nil_r, <- app_assoc.
  - intros c x w i n o c2 _ (_ & _ & -> & _). reflexivity.
  - intros c n o f c2 -> (-> & -> & -> & _). auto.
  - intros c m i. destruct m; [exists (length i), [], false, (c ++ i)|exists (length i), (tenc (c ++ i)), true, []|exists (length i), (tenc (c ++ i) ++ [0%N]), true, []]; repeat split.
  - intros c m i n o f c2 (-> & C) F. destruct m; cbn in F; [rewrite Nat.eqb_refl in F; discriminate| |]; destruct C as (_ & _ & ->); discriminate.
  - reflexivity.
  - intros d v y i later x room -> E P. cbn [dec toy] in E.
    assert (E2 : exists x2, x = y ++ x2 /\ match d with T0 => tdec (i ++ later) | T1 => tdec (1%N :: i ++ later) | TEnd => tdec (0%N :: i ++ later) end = (x2, Done [])).
    { rewrite <- app_assoc, tdec_enc in E. injection E as <- E. eexists. split; [reflexivity|]. destruct d; rewrite <- E; cbn [app]; apply surjective_pairing. }
    destruct E2 as (x2 & -> & E2). destruct (tdecomp_spec i d room later x2 E2) as (n & o & e & d2 & R & Ln & Lo & V & (z & Z) & Ee & Ne).
    exists n, o, e, d2. cbn [decomp toy dec]. split; [exact R|]. split; [exact Ln|]. split; [exact Lo|].
    assert (Hv : (tenc y ++ match d with T0 => [] | T1 => [1%N] | TEnd => [0%N] end) ++ firstn n i = tenc (y ++ o) ++ match d2 with T0 => [] | T1 => [1%N] | TEnd => [0%N] end) by (rewrite <- app_assoc, V, tenc_app, <- app_assoc; reflexivity).
    split; [exact Hv|]. split; [exists z; now rewrite Z|]. split.
    + rewrite Hv, tdec_v, Ee. split; [intros ->; reflexivity|]. intros X. destruct d2; [discriminate|discriminate|reflexivity].
    + intros A B. specialize (Ne A B). split; [exact Ne|]. rewrite Ne, firstn_all in Hv. rewrite Hv, tdec_v. reflexivity.
Qed.
