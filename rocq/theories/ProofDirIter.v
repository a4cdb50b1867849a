(** Proofs for C70. *)
From Verif Require Import Base ListX Str ModelPath PropPath ModelDirIter SpecDirIter.
Local Open Scope N_scope.
Local Notation str := (list N).

Definition nb (x : str) : Prop := forall m, x <> m ++ [92].

Lemma snoc_cases {A} (l : list A) : l = [] \/ exists m x, l = m ++ [x].
Proof. induction l using rev_ind; eauto. Qed.

Lemma child_join x n : n <> [] -> nb x -> child x n = join x n.
Proof.
  intros Hn Hx. destruct (snoc_cases x) as [->|(m & b & ->)].
  - cbn. destruct n; auto; congruence.
  - unfold child. rewrite rev_app_distr. cbn [rev app].
    unfold join, needs_sep, last_char. rewrite rev_app_distr. cbn [rev app].
    destruct n as [|c n]; [congruence|].
    assert (Hb : b <> 92) by (intros ->; exact (Hx m eq_refl)).
    unfold is_sep, slash, backslash.
    destruct (N.eqb_spec b 47) as [->|H47].
    + cbn. reflexivity.
    + destruct (N.eqb_spec b 92) as [?|_]; [congruence|]. cbn [negb orb].
      rewrite <- !app_assoc. cbn [app]. destruct b as [|q]; [reflexivity|].
      repeat (destruct q as [q|q|]; try reflexivity; try congruence).
Qed.

Lemma append_join d a : append d a = join d a.
Proof. destruct a; reflexivity. Qed.

Lemma nb_join x n : n <> [] -> nb n -> nb (join x n).
Proof.
  intros Hn Hb m E. destruct (snoc_cases n) as [->|(n' & b & ->)]; [congruence|].
  assert (exists q, join x (n' ++ [b]) = q ++ [b]) as [q Hq].
  { unfold join. destruct (n' ++ [b]) eqn:E2; [destruct n'; discriminate|]. rewrite <- E2.
    eexists. rewrite app_assoc. reflexivity. }
  rewrite Hq in E. apply app_inj_tail in E as [_ ->]. exact (Hb n' eq_refl).
Qed.

Lemma rel_of_push g f below :
  rel_of (g :: f :: below) = append (rel_of (f :: below)) (f_name g).
Proof.
  unfold rel_of. cbn [rev].
  destruct (rev below ++ [f]) as [|y l] eqn:E; [destruct (rev below); discriminate|].
  cbn [app tl]. rewrite fold_left_app. reflexivity.
Qed.

Lemma rel_of_rest f f' below : f_name f' = f_name f -> rel_of (f' :: below) = rel_of (f :: below).
Proof.
  intros E. destruct below as [|g b].
  - reflexivity.
  - rewrite !rel_of_push, E. reflexivity.
Qed.

Section Run.
Variable fs : str -> opened.
Variable alloc : nat -> list N -> N.

Lemma loop_mono k it r : loop fs alloc k it = Ok r -> loop fs alloc (S k) it = Ok r.
Proof.
  revert it. induction k; intros it H; [discriminate|].
  cbn [loop] in H. change (loop fs alloc (S (S k)) it) with
    (match step fs alloc it with Go it' => loop fs alloc (S k) it' | Ret e it' => Ok (Some e, it')
     | Halt it' => Ok (None, it') end).
  destruct (step fs alloc it); auto.
Qed.

Lemma next_mono k it r : next_entry fs alloc k it = Ok r -> next_entry fs alloc (S k) it = Ok r.
Proof. unfold next_entry. destruct (i_status it =? 0); auto. apply loop_mono. Qed.

Lemma drain_mono k it r : drain fs alloc k it = Ok r -> drain fs alloc (S k) it = Ok r.
Proof.
  revert it r. induction k; intros it r H; [discriminate|].
  cbn [drain] in H. unfold bind in H.
  destruct (next_entry fs alloc k it) as [[o it']| | |] eqn:E; try discriminate.
  apply next_mono in E. set (k1 := S k) in *. cbn [drain]. unfold bind. rewrite E.
  destruct o as [e|]; auto.
  destruct (drain fs alloc k it') as [[es it2]| | |] eqn:E2; try discriminate.
  apply IHk in E2. fold k1 in E2. rewrite E2. exact H.
Qed.

Lemma drain_le k k' it r : (k <= k')%nat -> drain fs alloc k it = Ok r -> drain fs alloc k' it = Ok r.
Proof. induction 1; auto using drain_mono. Qed.

Definition D it es itf := exists k, drain fs alloc k it = Ok (es, itf).

Lemma D_go it it' es itf : i_status it = 0 -> i_status it' = 0 -> step fs alloc it = Go it' ->
  D it' es itf -> D it es itf.
Proof.
  intros S0 S1 E [k H]. exists (S (S k)). destruct k as [|k]; [discriminate|].
  cbn [drain] in H. unfold bind, next_entry in H. rewrite S1 in H. cbn [N.eqb] in H.
  set (K := S (S k)). cbn [drain]. unfold bind, next_entry. rewrite S0. cbn [N.eqb].
  unfold K. cbn [loop]. rewrite E.
  destruct (loop fs alloc k it') as [[o i2]| | |] eqn:L; try discriminate.
  apply loop_mono in L. change (match step fs alloc it' with Go it'0 => loop fs alloc k it'0
     | Ret e it'0 => Ok (Some e, it'0) | Halt it'0 => Ok (None, it'0) end) with (loop fs alloc (S k) it').
  rewrite L. destruct o; auto.
  destruct (drain fs alloc k i2) as [[es2 i3]| | |] eqn:L2; try discriminate.
  apply (drain_le k (S (S k))) in L2; [|lia]. rewrite L2. exact H.
Qed.

Lemma D_ret it it' e es itf : i_status it = 0 -> step fs alloc it = Ret e it' ->
  D it' es itf -> D it (e :: es) itf.
Proof.
  intros S0 E [k H]. exists (S (S k)). set (K := S k). cbn [drain]. unfold bind, next_entry.
  rewrite S0. cbn [N.eqb]. unfold K at 1. cbn [loop]. rewrite E.
  apply drain_mono in H. fold K in H. rewrite H. reflexivity.
Qed.

Lemma D_halt it it' : i_status it = 0 -> step fs alloc it = Halt it' -> D it [] it'.
Proof.
  intros S0 E. exists 2%nat. cbn [drain]. unfold bind, next_entry. rewrite S0. cbn [N.eqb loop].
  rewrite E. reflexivity.
Qed.

Definition sane (k : kind) : Prop := k = Directory \/ k = Regular \/ k = Fifo \/ k = CharDev.
Definition ent (i : item) : entry :=
  let '(rel, n, k) := i in {| e_rel := rel; e_name := n; e_type := type_code k |}.

Definition same (a b : iter) : Prop :=
  i_path a = i_path b /\ i_ret_dirs a = i_ret_dirs b /\ i_ret_files a = i_ret_files b /\
  i_rec a = i_rec b /\ i_status a = i_status b.

Hypothesis Halloc : addresses_ok alloc.

(** The state of the loop at directory [p] with relative path [rel]. *)
Record at_dir (it : iter) (f : frame) (below : list frame) (p rel : str) : Prop := {
  ad_status : i_status it = 0;
  ad_dirs : i_dirs it = f :: below;
  ad_nodup : NoDup (ptrs (f :: below));
  ad_last : i_last it = f_ptr f -> i_rel it = rel;
  ad_rel : rel_of (f :: below) = rel;
  ad_path : p = join (i_path it) rel;
  ad_nb : nb p;
  ad_nbrel : nb rel }.

Definition outcome_of (it : iter) (f : frame) (below : list frame) (l : list item) (err : N) : Prop :=
  if err =? 0
  then exists it2, same it2 it /\ i_dirs it2 = below /\ i_last it2 = f_ptr f /\
       forall es itf, D it2 es itf -> D it (map ent l ++ es) itf
  else exists itf, D it (map ent l) itf /\ i_status itf = err.

Lemma cur_rel it f below p rel : at_dir it f below p rel ->
  (if i_last it =? f_ptr f then i_rel it else rel_of (f :: below)) = rel.
Proof.
  intros A. destruct (N.eqb_spec (i_last it) (f_ptr f)) as [E|E].
  - exact (ad_last _ _ _ _ _ A E).
  - exact (ad_rel _ _ _ _ _ A).
Qed.

Definition adv (f : frame) (rest : list (str * N)) : frame :=
  {| f_ptr := f_ptr f; f_name := f_name f; f_rest := rest; f_end := f_end f |}.

Lemma at_adv it f below p rel rest : at_dir it f below p rel ->
  at_dir (set_pos it (f_ptr f) rel (adv f rest :: below)) (adv f rest) below p rel.
Proof.
  intros A. constructor; cbn [i_status i_dirs set_pos i_last i_rel i_path]; auto.
  - exact (ad_status _ _ _ _ _ A).
  - exact (ad_nodup _ _ _ _ _ A).
  - rewrite (rel_of_rest f) by reflexivity. exact (ad_rel _ _ _ _ _ A).
  - exact (ad_path _ _ _ _ _ A).
  - exact (ad_nb _ _ _ _ _ A).
  - exact (ad_nbrel _ _ _ _ _ A).
Qed.

Lemma outcome_go it it1 f f' below l err :
  same it1 it -> i_status it = 0 -> f_ptr f' = f_ptr f ->
  step fs alloc it = Go it1 -> outcome_of it1 f' below l err -> outcome_of it f below l err.
Proof.
  intros Sm S0 Ep E O. assert (S1 : i_status it1 = 0) by (destruct Sm as (_ & _ & _ & _ & ->); auto).
  unfold outcome_of in *. destruct (err =? 0).
  - destruct O as (it2 & Sm2 & Hd & Hl & K). exists it2. split; [|split; [|split]]; auto.
    + unfold same in *. intuition congruence.
    + congruence.
    + intros es itf H. eapply D_go; eauto.
  - destruct O as (itf & H & Hs). exists itf. split; auto. eapply D_go; eauto.
Qed.

Lemma outcome_ret it it1 f f' below i l err :
  same it1 it -> i_status it = 0 -> f_ptr f' = f_ptr f ->
  step fs alloc it = Ret (ent i) it1 -> outcome_of it1 f' below l err ->
  outcome_of it f below (i :: l) err.
Proof.
  intros Sm S0 Ep E O. unfold outcome_of in *. destruct (err =? 0).
  - destruct O as (it2 & Sm2 & Hd & Hl & K). exists it2. split; [|split; [|split]]; auto.
    + unfold same in *. intuition congruence.
    + congruence.
    + intros es itf H. cbn [map app]. eapply D_ret; eauto.
  - destruct O as (itf & H & Hs). exists itf. split; auto. cbn [map]. eapply D_ret; eauto.
Qed.

(** from the end of a subdirectory on *)
Lemma outcome_sub it it2 f g below l1 l2 err :
  same it2 it -> f_ptr g = f_ptr f ->
  (forall es itf, D it2 es itf -> D it (map ent l1 ++ es) itf) ->
  outcome_of it2 g below l2 err -> outcome_of it f below (l1 ++ l2) err.
Proof.
  intros Sm Ep K O. unfold outcome_of in *. destruct (err =? 0).
  - destruct O as (it3 & Sm2 & Hd & Hl & K2). exists it3. split; [|split; [|split]]; auto.
    + unfold same in *. intuition congruence.
    + congruence.
    + intros es itf H. rewrite map_app, <- app_assoc. apply K, K2, H.
  - destruct O as (itf & H & Hs). exists itf. split; auto. rewrite map_app. apply K, H.
Qed.

Lemma same_refl it : same it it.
Proof. unfold same. auto. Qed.

Scheme on_disk_mut := Minimality for on_disk Sort Prop
  with sub_on_disk_mut := Minimality for sub_on_disk Sort Prop.

Lemma at_push it f below p rel n es e : at_dir it f below p rel -> i_last it = f_ptr f -> good_name n ->
  at_dir (push alloc it n es e)
    {| f_ptr := alloc (i_opens it) (ptrs (i_dirs it)); f_name := n; f_rest := es; f_end := e |}
    (f :: below) (child p n) (child rel n) .
Proof.
  intros A Hl (Hn0 & _ & _ & _ & Hnb).
  pose proof (ad_dirs _ _ _ _ _ A) as Ed.
  destruct (Halloc (i_opens it) (ptrs (i_dirs it))) as [_ Hf].
  constructor; cbn [i_status i_dirs push i_last i_rel i_path].
  - exact (ad_status _ _ _ _ _ A).
  - rewrite Ed. reflexivity.
  - cbn [ptrs map f_ptr]. constructor; [|exact (ad_nodup _ _ _ _ _ A)].
    rewrite Ed in *. exact Hf.
  - cbn [f_ptr]. intros E. exfalso. apply Hf. rewrite <- E, Hl, Ed. left. reflexivity.
  - rewrite rel_of_push. cbn [f_name]. rewrite (ad_rel _ _ _ _ _ A), append_join.
    symmetry. apply child_join; auto. exact (ad_nbrel _ _ _ _ _ A).
  - rewrite !child_join by (auto; first [exact (ad_nbrel _ _ _ _ _ A)|exact (ad_nb _ _ _ _ _ A)]).
    rewrite (ad_path _ _ _ _ _ A) at 1. apply C19_join_monoid.
  - rewrite child_join by (auto; exact (ad_nb _ _ _ _ _ A)). apply nb_join; auto.
  - rewrite child_join by (auto; exact (ad_nbrel _ _ _ _ _ A)). apply nb_join; auto.
Qed.

Lemma traverse : forall p t es e, on_disk fs p t es e ->
  forall it f below rel l err,
    at_dir it f below p rel -> f_rest f = es -> f_end f = e ->
    good_names t -> only_kinds sane t ->
    listing (i_ret_dirs it) (i_ret_files it) (i_rec it) rel t = (l, err) ->
    outcome_of it f below l err.
Proof.
  apply (on_disk_mut fs
    (fun p t es e => forall it f below rel l err,
       at_dir it f below p rel -> f_rest f = es -> f_end f = e ->
       good_names t -> only_kinds sane t ->
       listing (i_ret_dirs it) (i_ret_files it) (i_rec it) rel t = (l, err) ->
       outcome_of it f below l err)
    (fun p s => match s with
       | Denied => fs p = OpenFailed 13
       | Broken e => e <> 0 /\ e <> 13 /\ fs p = OpenFailed e
       | Contents t => exists es e, fs p = Opened es e /\
           forall it f below rel l err,
             at_dir it f below p rel -> f_rest f = es -> f_end f = e ->
             good_names t -> only_kinds sane t ->
             listing (i_ret_dirs it) (i_ret_files it) (i_rec it) rel t = (l, err) ->
             outcome_of it f below l err
       end)).
  - (* end of a directory *)
    intros p e it f below rel l err A Er Ee _ _ L. cbn in L. injection L as <- <-.
    pose proof (cur_rel _ _ _ _ _ A) as Hrel. pose proof (ad_status _ _ _ _ _ A) as S0.
    unfold outcome_of. destruct (N.eqb_spec e 0) as [E0|E0].
    + exists (set_pos it (f_ptr f) rel below). split; [(unfold same; repeat split)|]. split; [reflexivity|].
      split; [reflexivity|]. intros es itf H. cbn [map app].
      refine (D_go _ _ _ _ S0 _ _ H); [exact S0|].
      unfold step. rewrite (ad_dirs _ _ _ _ _ A), Er, Ee, E0, Hrel. reflexivity.
    + exists (set_status (set_pos it (f_ptr f) rel (i_dirs it)) e). split; [|reflexivity].
      apply D_halt; auto. unfold step. rewrite (ad_dirs _ _ _ _ _ A), Er, Ee, Hrel.
      destruct (N.eqb_spec e 0); [congruence|reflexivity].
  - (* . and .. *)
    intros p t es e n Hn _ IH it f below rel l err A Er Ee G O L.
    pose proof (cur_rel _ _ _ _ _ A) as Hrel.
    refine (outcome_go it (set_pos it (f_ptr f) rel (adv f es :: below)) f (adv f es) below l err _ _ _ _ _).
    + (unfold same; repeat split).
    + exact (ad_status _ _ _ _ _ A).
    + reflexivity.
    + unfold step. rewrite (ad_dirs _ _ _ _ _ A), Er. cbn [type_code].
      rewrite Hrel. destruct Hn as [-> | ->]; reflexivity.
    + eapply IH; eauto. apply at_adv, A.
  - (* an entry *)
    intros p n k s r es e _ IHs _ IHr it f below rel l err A Er Ee G O L.
    pose proof (cur_rel _ _ _ _ _ A) as Hrel. pose proof (ad_status _ _ _ _ _ A) as S0.
    destruct G as (Gn & Gs & Gr). destruct O as (Ok_ & Os & Or).
    set (it1 := set_pos it (f_ptr f) rel (adv f es :: below)).
    pose proof (at_adv _ _ _ _ _ es A) as A1. fold it1 in A1.
    assert (Sm : same it1 it) by (unfold same; repeat split).
    assert (Hs : step fs alloc it =
      if negb (N.land (type_code k) DT_DIR =? 0) then
        let finish it2 := if i_ret_dirs it then Ret (ent (rel, n, k)) it2 else Go it2 in
        if i_rec it then
          match fs (child p n) with
          | Opened es e => finish (push alloc it1 n es e)
          | OpenFailed e => if e =? EACCES then finish it1 else Halt (set_status it1 e)
          end
        else finish it1
      else if negb (N.land (type_code k) DT_REG =? 0) then
        if i_ret_files it then Ret (ent (rel, n, k)) it1 else Go it1
      else Go it1).
    { unfold step. rewrite (ad_dirs _ _ _ _ _ A), Er, Hrel. fold (adv f es). fold it1.
      destruct Gn as (N0 & N1 & N2 & _ & _).
      replace (seqb n dot || seqb n dotdot) with false.
      2: { symmetry. apply orb_false_iff. split; apply not_true_is_false; intros H;
           [destruct (seqb_spec n dot)|destruct (seqb_spec n dotdot)]; unfold dot, dotdot in *; congruence. }
      rewrite <- (ad_path _ _ _ _ _ A), <- child_join by (auto; exact (ad_nb _ _ _ _ _ A)).
      reflexivity. }
    assert (IHr' : forall l err, listing (i_ret_dirs it) (i_ret_files it) (i_rec it) rel r = (l, err) ->
              outcome_of it1 (adv f es) below l err)
      by (intros; eapply IHr; eauto).
    destruct Ok_ as [-> | [-> | Ok_]].
    + (* directory *)
      change (negb (N.land (type_code Directory) DT_DIR =? 0)) with true in Hs. cbv iota zeta in Hs.
      cbn [listing] in L.
      destruct (listing (i_ret_dirs it) (i_ret_files it) (i_rec it) rel r) as [lr er] eqn:Lr.
      specialize (IHr' _ _ eq_refl).
      assert (Skip : forall it2, same it2 it -> step fs alloc it = (if i_ret_dirs it then Ret (ent (rel, n, Directory)) it2 else Go it2) ->
        forall g l2 err2, f_ptr g = f_ptr f -> outcome_of it2 g below l2 err2 ->
        outcome_of it f below ((if i_ret_dirs it then [(rel, n, Directory)] else []) ++ l2) err2).
      { intros it2 Sm2 E2 g l2 err2 Eg Hp. destruct (i_ret_dirs it).
        - eapply outcome_ret; eauto.
        - eapply outcome_go; eauto. }
      destruct (i_rec it) eqn:Rc.
      2: { injection L as <- <-. eapply Skip; eauto. }
      destruct s as [|es'|t'].
      * (* no permission *)
        rewrite IHs in Hs. change (13 =? EACCES) with true in Hs. cbv iota in Hs.
        injection L as <- <-. eapply Skip; eauto.
      * destruct IHs as (H0 & H13 & Hf). rewrite Hf in Hs.
        destruct (N.eqb_spec es' EACCES) as [E|_]; [contradiction|].
        injection L as <- <-. unfold outcome_of.
        destruct (N.eqb_spec es' 0) as [?|_]; [contradiction|].
        eexists. split; [apply D_halt; eauto|reflexivity].
      * destruct IHs as (es2 & e2 & Hf & IHt). rewrite Hf in Hs.
        destruct (listing (i_ret_dirs it) (i_ret_files it) true (child rel n) t') as [lt et] eqn:Lt.
        pose proof (at_push _ _ _ _ _ n es2 e2 A1 eq_refl Gn) as A2.
        assert (Sm2 : same (push alloc it1 n es2 e2) it) by (unfold same; repeat split).
        assert (Ot : outcome_of (push alloc it1 n es2 e2)
           {| f_ptr := alloc (i_opens it1) (ptrs (i_dirs it1)); f_name := n; f_rest := es2; f_end := e2 |}
           (adv f es :: below) lt et).
        { apply IHt with (rel := child rel n); auto.
          cbn [push it1 set_pos i_ret_dirs i_ret_files i_rec]. rewrite Rc. exact Lt. }
        assert (Pre : forall l2 err2,
           (forall it2, same it2 it -> i_dirs it2 = adv f es :: below ->
              i_last it2 = alloc (i_opens it1) (ptrs (i_dirs it1)) ->
              outcome_of it2 (adv f es) below l2 err2) ->
           et = 0 ->
           outcome_of it f below ((if i_ret_dirs it then [(rel, n, Directory)] else []) ++ lt ++ l2) err2).
        { intros l2 err2 K ->. destruct Ot as (it2 & Sm3 & Hd2 & Hl2 & K2).
          assert (Sm4 : same it2 it) by (unfold same in *; intuition congruence).
          apply (Skip _ Sm2 Hs (adv f es)); [reflexivity|].
          eapply outcome_sub; [| |exact K2|].
          - exact Sm3.
          - reflexivity.
          - apply K; auto. }
        destruct (N.eqb_spec et 0) as [E0|E0].
        -- injection L as <- <-. apply Pre; auto. intros it2 Sm3 Hd2 Hl2.
           eapply IHr; eauto; [| destruct Sm3 as (_ & -> & -> & -> & _); rewrite Rc; exact Lr].
           destruct Sm3 as (Sp & _ & _ & _ & Ss).
           constructor.
           ++ congruence.
           ++ exact Hd2.
           ++ exact (ad_nodup _ _ _ _ _ A).
           ++ intros E. exfalso.
              destruct (Halloc (i_opens it1) (ptrs (i_dirs it1))) as [_ Hfr]. apply Hfr.
              rewrite <- Hl2, E. left. reflexivity.
           ++ exact (ad_rel _ _ _ _ _ A1).
           ++ rewrite Sp. exact (ad_path _ _ _ _ _ A).
           ++ exact (ad_nb _ _ _ _ _ A).
           ++ exact (ad_nbrel _ _ _ _ _ A).
        -- injection L as <- <-. unfold outcome_of in Ot |- *.
           destruct (N.eqb_spec et 0) as [?|_]; [contradiction|].
           destruct Ot as (itf & H & Hst). exists itf. split; auto. rewrite map_app.
           destruct (i_ret_dirs it).
           ++ cbn [map app]. eapply D_ret; eauto.
           ++ cbn [map app]. refine (D_go _ _ _ _ S0 _ Hs H). exact S0.
    + (* regular file *)
      change (negb (N.land (type_code Regular) DT_DIR =? 0)) with false in Hs.
      change (negb (N.land (type_code Regular) DT_REG =? 0)) with true in Hs. cbv iota zeta in Hs.
      cbn [listing] in L.
      destruct (listing (i_ret_dirs it) (i_ret_files it) (i_rec it) rel r) as [lr er] eqn:Lr.
      specialize (IHr' _ _ eq_refl). injection L as <- <-.
      destruct (i_ret_files it).
      * cbn [app]. eapply outcome_ret; eauto.
      * cbn [app]. eapply outcome_go; eauto.
    + assert (Hg : step fs alloc it = Go it1) by (destruct Ok_ as [-> | ->]; exact Hs).
      assert (L' : listing (i_ret_dirs it) (i_ret_files it) (i_rec it) rel r = (l, err))
        by (destruct Ok_ as [-> | ->]; exact L).
      eapply outcome_go; eauto.
  - intros p H. exact H.
  - intros p e H0 H13 H. auto.
  - intros p t es e Hf _ IH. exists es, e. auto.
Qed.
End Run.

Lemma tree_ind2 (P : tree -> Prop) : (forall e, P (End e)) ->
  (forall n k s r, (forall t, s = Contents t -> P t) -> P r -> P (Entry n k s r)) -> forall t, P t.
Proof.
  intros He Hn. fix IH 1. intros [e|n k s r]; [apply He|].
  apply Hn; [|apply IH]. destruct s as [| |t0]; intros t E; try discriminate.
  injection E as <-. apply IH.
Qed.
