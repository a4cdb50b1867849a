(** C67: deploying remote components. *)
From Verif Require Import Base SpecDeploy ModelDeploy SpecServer ModelServer.
From Coq Require Import Lia List.
Import ListNotations.
Local Notation str := (list N).
Local Notation path := (list (list N)).

Lemma put_same s p x : put_node s p x p = x.
Proof. unfold put_node. destruct (list_eq_dec _ p p); congruence. Qed.
Lemma put_other s p x q : q <> p -> put_node s p x q = s q.
Proof. intros. unfold put_node. destruct (list_eq_dec _ q p); congruence. Qed.
Definition steps (ds : path) : list cmd := flat_map (fun d => [Mkdir d true; Cd d]) ds.
Lemma batch_app loc a b s cwd :
  batch loc (a ++ b) s cwd = let '(ok, s2, c2) := batch loc a s cwd in if ok then batch loc b s2 c2 else (false, s2, c2).
Proof.
  revert s cwd. induction a as [|c a IH]; intros s cwd; [reflexivity|]. cbn.
  destruct (exec loc c s cwd) as [[s2 c2]|]; [apply IH|reflexivity].
Qed.
Lemma firstn_S_cons {A} (x : A) l n : firstn (S n) (x :: l) = x :: firstn n l. Proof. reflexivity. Qed.
Lemma longer (cwd : path) (d : str) (l : path) : cwd <> cwd ++ d :: l.
Proof. intros H. apply (f_equal (@length (list N))) in H. rewrite app_length in H. cbn in H. lia. Qed.

(** The directories part, or a beginning of it, touches these directories only. *)
Lemma steps_prefix loc : forall ds n s cwd ok s2 c2, batch loc (firstn n (steps ds)) s cwd = (ok, s2, c2) ->
  forall q, (forall m, q <> cwd ++ firstn m ds) -> s2 q = s q.
Proof.
  induction ds as [|d ds IH]; intros n s cwd ok s2 c2 H q Hq.
  - cbn in H. rewrite firstn_nil in H. cbn in H. inversion H; reflexivity.
  - assert (Hd : q <> cwd ++ [d]) by (exact (Hq 1)).
    assert (Hr : forall m, q <> (cwd ++ [d]) ++ firstn m ds) by (intros m; rewrite <- app_assoc; exact (Hq (S m))).
    destruct n as [|[|n]]; cbn in H.
    + inversion H; reflexivity.
    + destruct (s cwd) as [[|]|]; destruct (s (cwd ++ [d])) as [[|]|]; inversion H; subst; try reflexivity.
      apply put_other. exact Hd.
    + assert (K : forall s1, (s1 = s \/ s1 = put_node s (cwd ++ [d]) (Some Dir)) -> s1 q = s q)
        by (intros s1 [->| ->]; [reflexivity|apply put_other; exact Hd]).
      assert (L : forall s1, (s1 = s \/ s1 = put_node s (cwd ++ [d]) (Some Dir)) ->
        match match s1 (cwd ++ [d]) with Some Dir => Some (s1, cwd ++ [d]) | _ => None end with
        | Some (s3, c3) => batch loc (firstn n (steps ds)) s3 c3 | None => (false, s1, cwd) end = (ok, s2, c2) -> s2 q = s q).
      { intros s1 H1 H2. destruct (s1 (cwd ++ [d])) as [[|]|].
        - rewrite (IH _ _ _ _ _ _ H2 q Hr). apply K. exact H1.
        - inversion H2; subst. apply K. exact H1.
        - inversion H2; subst. apply K. exact H1. }
      destruct (s cwd) as [[|]|]; destruct (s (cwd ++ [d])) as [[|]|] eqn:Ed;
        first [ apply (L s); [left; reflexivity|rewrite Ed; exact H] | apply (L s); [left; reflexivity|exact H] | eapply L; [right; reflexivity|exact H] ].
Qed.
Lemma steps_cwd loc : forall ds s cwd s2 c2, batch loc (steps ds) s cwd = (true, s2, c2) -> c2 = cwd ++ ds.
Proof.
  induction ds as [|d ds IH]; intros s cwd s2 c2 H; cbn in H.
  - inversion H. rewrite app_nil_r. reflexivity.
  - assert (L : forall s1, match match s1 (cwd ++ [d]) with Some Dir => Some (s1, cwd ++ [d]) | _ => None end with
        | Some (s3, c3) => batch loc (steps ds) s3 c3 | None => (false, s1, cwd) end = (true, s2, c2) -> c2 = cwd ++ d :: ds).
    { intros s1 H2. destruct (s1 (cwd ++ [d])) as [[|]|]; try discriminate. apply IH in H2. rewrite H2, <- app_assoc. reflexivity. }
    destruct (s cwd) as [[|]|]; destruct (s (cwd ++ [d])) as [[|]|] eqn:Ed;
      first [ apply (L s); rewrite Ed; exact H | apply (L s); exact H | eapply L; exact H ].
Qed.
(** [clear_way] relative to a directory. *)
Definition way (s : fs) (cwd ds : path) : Prop :=
  s cwd = Some Dir /\
  forall n, n <= length ds -> s (cwd ++ firstn n ds) = Some Dir \/ (forall m, n <= m <= length ds -> s (cwd ++ firstn m ds) = None).
Lemma way_tail s cwd d ds : way s cwd (d :: ds) -> s (cwd ++ [d]) = Some Dir -> way s (cwd ++ [d]) ds.
Proof.
  intros (H1 & H2) Hd. split; [exact Hd|]. intros n Hn. destruct (H2 (S n)) as [H|H]; [cbn; lia| |].
  - left. rewrite <- app_assoc. exact H.
  - right. intros m Hm. rewrite <- app_assoc. apply (H (S m)). cbn. lia.
Qed.
Lemma way_first s cwd d ds : way s cwd (d :: ds) -> s (cwd ++ [d]) = Some Dir \/ s (cwd ++ [d]) = None.
Proof. intros (H1 & H2). destruct (H2 1) as [H|H]; [cbn; lia|left; exact H|right; apply (H 1); cbn; lia]. Qed.
Lemma way_made s cwd d ds : way s cwd (d :: ds) -> s (cwd ++ [d]) = None -> way (put_node s (cwd ++ [d]) (Some Dir)) cwd (d :: ds).
Proof.
  intros (H1 & H2) Hd.
  assert (Hne : cwd <> cwd ++ [d]) by apply longer.
  split; [rewrite put_other by exact Hne; exact H1|]. intros n Hn.
  destruct n as [|[|n]].
  - left. cbn. rewrite app_nil_r. rewrite put_other by exact Hne. exact H1.
  - left. cbn. apply put_same.
  - right. intros m Hm. destruct m as [|[|m]]; [lia|lia|].
    assert (Hall : s (cwd ++ firstn (S (S m)) (d :: ds)) = None).
    { destruct (H2 1) as [X|X]; [cbn; lia|cbn in X; congruence|apply X; lia]. }
    rewrite put_other; [exact Hall|]. intros X. apply app_inv_head in X. destruct ds as [|e ds]; [cbn in Hm; lia|]. discriminate X.
Qed.
Lemma way_cons s cwd d ds : s cwd = Some Dir -> way s (cwd ++ [d]) ds -> way s cwd (d :: ds).
Proof.
  intros H1 (H2 & H3). split; [exact H1|]. intros n Hn. destruct n as [|n]; [left; cbn; rewrite app_nil_r; exact H1|].
  destruct (H3 n) as [H|H]; [cbn in Hn; lia| |].
  - left. rewrite <- app_assoc in H. exact H.
  - right. intros m Hm. destruct m as [|m]; [lia|]. cbn in Hm. specialize (H m). rewrite <- app_assoc in H. apply H. lia.
Qed.
(** With a clear way the directories part succeeds and the way stays clear at every moment. *)
Lemma steps_ok loc : forall ds s cwd, way s cwd ds ->
  exists s2, batch loc (steps ds) s cwd = (true, s2, cwd ++ ds) /\ s2 (cwd ++ ds) = Some Dir /\ way s2 cwd ds.
Proof.
  induction ds as [|d ds IH]; intros s cwd Hw.
  - exists s. rewrite app_nil_r. split; [reflexivity|]. split; [apply Hw|exact Hw].
  - cbn [steps flat_map app batch exec].
    assert (G : exists s1, (match s cwd, s (cwd ++ [d]) with
                   | Some Dir, None => Some (put_node s (cwd ++ [d]) (Some Dir), cwd)
                   | _, _ => Some (s, cwd)
                   end) = Some (s1, cwd) /\ way s1 cwd (d :: ds) /\ s1 (cwd ++ [d]) = Some Dir).
    { pose proof (proj1 Hw) as H0. rewrite H0. destruct (way_first _ _ _ _ Hw) as [Hd|Hd]; rewrite Hd.
      - exists s. auto.
      - exists (put_node s (cwd ++ [d]) (Some Dir)). split; [reflexivity|]. split; [apply way_made; assumption|apply put_same]. }
    destruct G as (s1 & E & Hw1 & Hd1). unfold exec. rewrite E. rewrite Hd1.
    destruct (IH s1 (cwd ++ [d]) (way_tail _ _ _ _ Hw1 Hd1)) as (s2 & E2 & Hdir & Hw2).
    exists s2. change (flat_map (fun d0 => [Mkdir d0 true; Cd d0]) ds) with (steps ds). rewrite E2. rewrite <- app_assoc in *. split; [reflexivity|]. split; [exact Hdir|].
    apply way_cons; [|exact Hw2].
    rewrite (steps_prefix loc ds (length (steps ds)) s1 (cwd ++ [d]) true s2 ((cwd ++ [d]) ++ ds)).
    + apply Hw1.
    + rewrite firstn_all, E2, <- app_assoc. reflexivity.
    + intros m. rewrite <- app_assoc. apply longer.
Qed.
Lemma steps_way loc : forall ds n s cwd ok s2 c2, way s cwd ds -> batch loc (firstn n (steps ds)) s cwd = (ok, s2, c2) -> way s2 cwd ds.
Proof.
  induction ds as [|d ds IH]; intros n s cwd ok s2 c2 Hw H.
  - cbn in H. rewrite firstn_nil in H. inversion H; subst. exact Hw.
  - assert (G : exists s1, exec loc (Mkdir d true) s cwd = Some (s1, cwd) /\ way s1 cwd (d :: ds) /\ s1 (cwd ++ [d]) = Some Dir).
    { pose proof (proj1 Hw) as H0. cbn. rewrite H0. destruct (way_first _ _ _ _ Hw) as [Hd|Hd]; rewrite Hd.
      - exists s. auto.
      - exists (put_node s (cwd ++ [d]) (Some Dir)). split; [reflexivity|]. split; [apply way_made; assumption|apply put_same]. }
    destruct G as (s1 & E & Hw1 & Hd1).
    destruct n as [|[|n]].
    + inversion H; subst. exact Hw.
    + change (firstn 1 (steps (d :: ds))) with [Mkdir d true] in H. cbn [batch] in H. rewrite E in H. inversion H; subst. exact Hw1.
    + change (firstn (S (S n)) (steps (d :: ds))) with (Mkdir d true :: Cd d :: firstn n (steps ds)) in H.
      cbn [batch] in H. rewrite E in H. cbn [exec] in H. rewrite Hd1 in H.
      apply way_cons.
      * rewrite (steps_prefix loc _ _ _ _ _ _ _ H); [apply Hw1|]. intros m. rewrite <- app_assoc. apply longer.
      * exact (IH _ _ _ _ _ _ (way_tail _ _ _ _ Hw1 Hd1) H).
Qed.

Section Script.
  Variable loc : str -> option file.
  Variable ds : path.
  Variable f uid : str.
  Variable new : file.
  Hypothesis Huid : uid <> [].
  Hypothesis Hloc : loc f = Some new.
  Let p := ds ++ [f].
  Let t := ds ++ [f ++ uid].
  Let rest := [Put f (f ++ uid); Chmod f true; Chmod (f ++ uid) false; Rename (f ++ uid) f].

  Lemma pt : p <> t.
  Proof.
    unfold p, t. intros H. apply app_inv_head in H. injection H as H. rewrite <- (app_nil_r f) in H at 1. apply app_inv_head in H. congruence.
  Qed.
  Lemma pd m : p <> firstn m ds.
  Proof. unfold p. intros H. apply (f_equal (@length (list N))) in H. rewrite app_length, firstn_length in H. cbn in H. lia. Qed.
  Lemma td m : t <> firstn m ds.
  Proof. unfold t. intros H. apply (f_equal (@length (list N))) in H. rewrite app_length, firstn_length in H. cbn in H. lia. Qed.

  Definition new755 : file := mkf (f_data new) (f_time new) x755.
  (** What [p] holds at any moment. *)
  Definition old_or_new (s s2 : fs) : Prop :=
    s2 p = s p \/ (exists old, s p = Some (File old) /\ s2 p = Some (File (mkf (f_data old) (f_time old) x755))) \/ s2 p = Some (File new755).
  Lemma rest_atomic : forall n s ok s2 c2, batch loc (firstn n rest) s ds = (ok, s2, c2) ->
    old_or_new s s2 /\ (forall q, q <> p -> q <> t -> s2 q = s q) /\ (s p <> Some Dir -> s2 p <> Some Dir) .
  Proof.
    pose proof pt as Hpt. assert (Htp : t <> p) by (intros X; apply Hpt; symmetry; exact X).
    intros n s ok s2 c2 H. unfold old_or_new.
    destruct n as [|n]; [inversion H; subst; auto|].
    unfold rest in H. cbn [firstn batch] in H. unfold exec in H at 1. rewrite Hloc in H. fold t in H.
    assert (Triv : s = s2 -> old_or_new s s2 /\ (forall q, q <> p -> q <> t -> s2 q = s q) /\ (s p <> Some Dir -> s2 p <> Some Dir))
      by (intros <-; unfold old_or_new; auto).
    assert (Main : batch loc (firstn n [Chmod f true; Chmod (f ++ uid) false; Rename (f ++ uid) f]) (put_node s t (Some (File new))) ds = (ok, s2, c2) ->
       old_or_new s s2 /\ (forall q, q <> p -> q <> t -> s2 q = s q) /\ (s p <> Some Dir -> s2 p <> Some Dir)).
    { clear H Triv. set (s1 := put_node s t (Some (File new))). intros H.
      assert (E1 : s1 p = s p) by (unfold s1; apply put_other; exact Hpt).
      assert (E2 : s1 t = Some (File new)) by (unfold s1; apply put_same).
      assert (E3 : forall q, q <> p -> q <> t -> s1 q = s q) by (intros q _ Hq; unfold s1; apply put_other; exact Hq).
      destruct n as [|n]; [inversion H; subst; split; [left; exact E1|]; split; [exact E3|rewrite E1; auto]|].
      cbn [firstn batch] in H. unfold exec in H at 1. fold p in H. rewrite E1 in H.
      assert (Next : forall s3, (s3 p = s p \/ exists old, s p = Some (File old) /\ s3 p = Some (File (mkf (f_data old) (f_time old) x755))) ->
         s3 t = Some (File new) -> (forall q, q <> p -> q <> t -> s3 q = s q) ->
         batch loc (firstn n [Chmod (f ++ uid) false; Rename (f ++ uid) f]) s3 ds = (ok, s2, c2) ->
         old_or_new s s2 /\ (forall q, q <> p -> q <> t -> s2 q = s q) /\ (s p <> Some Dir -> s2 p <> Some Dir)).
      { clear H. intros s3 Hp Ht Hq H. unfold old_or_new.
        assert (Hnd : s p <> Some Dir -> s3 p <> Some Dir) by (intros X; destruct Hp as [Y|(old & Y & Z)]; congruence).
        destruct n as [|n]; [inversion H; subst; split; [tauto|]; split; [exact Hq|exact Hnd]|].
        cbn [firstn batch] in H. unfold exec in H at 1. fold t in H. rewrite Ht in H.
        set (s4 := put_node s3 t (Some (File {| f_data := f_data new; f_time := f_time new; f_mode := x755 |}))) in *.
        assert (F1 : s4 p = s3 p) by (unfold s4; apply put_other; exact Hpt).
        assert (F2 : s4 t = Some (File new755)) by (unfold s4; apply put_same).
        assert (F3 : forall q, q <> p -> q <> t -> s4 q = s q) by (intros q A B; unfold s4; rewrite put_other by exact B; apply Hq; assumption).
        destruct n as [|n]; [inversion H; subst; rewrite F1; split; [tauto|]; split; [exact F3|exact Hnd]|].
        cbn [firstn batch] in H. unfold exec in H at 1. fold t p in H. rewrite F2, F1 in H.
        assert (Last : batch loc (firstn n (@nil cmd)) (put_node (put_node s4 p (Some (File new755))) t None) ds = (ok, s2, c2) ->
          (s2 p = s p \/ (exists old, s p = Some (File old) /\ s2 p = Some (File (mkf (f_data old) (f_time old) x755))) \/ s2 p = Some (File new755)) /\ (forall q, q <> p -> q <> t -> s2 q = s q) /\ (s p <> Some Dir -> s2 p <> Some Dir)).
        { intros X. rewrite firstn_nil in X. inversion X; subst. split; [right; right; rewrite put_other by exact Hpt; apply put_same|].
          split; [intros q A B; rewrite put_other by exact B; rewrite put_other by exact A; apply F3; assumption|].
          intros _. rewrite put_other by exact Hpt. rewrite put_same. discriminate. }
        destruct (s3 p) as [[|x]|] eqn:E3p.
        - inversion H; subst. rewrite F1. split; [tauto|]. split; [exact F3|exact Hnd].
        - apply Last. exact H.
        - apply Last. exact H. }
      destruct (s p) as [[|x]|] eqn:Ep.
      - apply (Next s1); auto.
      - apply (Next (put_node s1 p (Some (File {| f_data := f_data x; f_time := f_time x; f_mode := x755 |})))); [| | |exact H].
        + right. exists x. split; [reflexivity|apply put_same].
        + rewrite put_other by exact Htp. exact E2.
        + intros q A B. rewrite put_other by exact A. apply E3; assumption.
      - apply (Next s1); auto. }
    destruct (s ds) as [[|]|]; [|inversion H; subst; apply Triv; reflexivity|inversion H; subst; apply Triv; reflexivity].
    destruct (s t) as [[|]|]; [inversion H; subst; apply Triv; reflexivity|apply Main; exact H|apply Main; exact H].
  Qed.
  Lemma steps_length : length (steps ds) = 2 * length ds.
  Proof. unfold steps. clear. induction ds as [|d l IH]; [reflexivity|]. cbn [flat_map app length]. rewrite IH. lia. Qed.
  Lemma script_prefix : forall n s ok s2 c2, batch loc (firstn n (steps ds ++ rest)) s [] = (ok, s2, c2) ->
    old_or_new s s2 /\ only_changes s s2 ds p t /\ (s p <> Some Dir -> s2 p <> Some Dir) /\ (way s [] ds -> way s2 [] ds).
  Proof.
    intros n s ok s2 c2 H. rewrite firstn_app, batch_app in H.
    destruct (batch loc (firstn n (steps ds)) s []) as [[ok1 s1] c1] eqn:E1.
    pose proof (steps_prefix loc ds n s [] ok1 s1 c1 E1) as Q. cbn [app] in Q.
    assert (Q1 : s1 p = s p) by (apply Q; exact pd).
    assert (Base : (ok1, s1, c1) = (ok, s2, c2) \/ (n - length (steps ds))%nat = 0%nat /\ s2 = s1 ->
      old_or_new s s2 /\ only_changes s s2 ds p t /\ (s p <> Some Dir -> s2 p <> Some Dir) /\ (way s [] ds -> way s2 [] ds)).
    { intros X. assert (s2 = s1) by (destruct X as [X|[_ X]]; [inversion X; reflexivity|exact X]). subst s2.
      split; [left; exact Q1|]. split; [intros q _ _ Hq; apply Q; exact Hq|]. split; [rewrite Q1; auto|].
      intros Hw. exact (steps_way loc ds n s [] _ _ _ Hw E1). }
    destruct ok1; [|apply Base; left; exact H].
    destruct (Nat.le_gt_cases n (length (steps ds))) as [Hn|Hn].
    - rewrite (proj2 (Nat.sub_0_le _ _) Hn) in H. cbn in H. apply Base. left. exact H.
    - rewrite firstn_all2 in E1 by lia. pose proof (steps_cwd loc ds s [] s1 c1 E1) as Hc. cbn [app] in Hc. subst c1.
      destruct (rest_atomic _ _ _ _ _ H) as (A & B & C). unfold old_or_new in *. rewrite Q1 in *.
      split; [exact A|]. split; [intros q Hp Ht Hd; rewrite B by assumption; apply Q; exact Hd|]. split; [exact C|].
      intros Hw. destruct (steps_ok loc ds s [] Hw) as (s1' & E1' & _ & Hw1). rewrite E1 in E1'. injection E1' as <-.
      assert (P : forall m, s2 (firstn m ds) = s1 (firstn m ds)).
      { intros m. apply B; intros X; symmetry in X; [exact (pd m X)|exact (td m X)]. }
      destruct Hw1 as (W1 & W2). split; [rewrite <- W1; exact (P 0)|]. cbn [app] in *. intros k Hk.
      destruct (W2 k Hk) as [W|W]; [left; rewrite P; exact W|right; intros m Hm; rewrite P; apply W; exact Hm].
  Qed.
  Lemma script_broken : forall s s2, broken loc (steps ds ++ rest) s s2 ->
    old_or_new s s2 /\ only_changes s s2 ds p t /\ (s p <> Some Dir -> s2 p <> Some Dir) /\ (way s [] ds -> way s2 [] ds).
  Proof.
    pose proof pt as Hpt.
    intros s s2 H. destruct H as [n s2 H|n l r s2 cwd g x k Hb Hn Hl Hnd Hx].
    - destruct (batch loc (firstn n (steps ds ++ rest)) s []) as [[ok s3] c3] eqn:E. cbn in H. subst s3.
      exact (script_prefix _ _ _ _ _ E).
    - assert (Hcase : n = length (steps ds) /\ l = f /\ r = f ++ uid).
      { destruct (Nat.lt_ge_cases n (length (steps ds))) as [Hlt|Hge].
        - rewrite nth_error_app1 in Hn by exact Hlt. apply nth_error_In in Hn. unfold steps in Hn. apply in_flat_map in Hn.
          destruct Hn as (d & _ & [X|[X|X]]); try discriminate X. contradiction X.
        - rewrite nth_error_app2 in Hn by exact Hge. unfold rest in Hn.
          destruct (n - length (steps ds))%nat as [|[|[|[|m]]]] eqn:En; cbn in Hn; try discriminate Hn.
          + inversion Hn; subst. split; [lia|auto].
          + destruct m; discriminate Hn. }
      destruct Hcase as (-> & -> & ->). pose proof (script_prefix _ _ _ _ _ Hb) as (A & B & C & D).
      rewrite firstn_app, firstn_all, Nat.sub_diag in Hb. cbn [firstn] in Hb. rewrite app_nil_r in Hb.
      pose proof (steps_cwd loc ds s [] s2 cwd Hb) as Hc. cbn [app] in Hc. subst cwd. fold t.
      unfold old_or_new in *. rewrite put_other by exact Hpt.
      split; [exact A|]. split; [intros q Hp Ht Hd; rewrite put_other by exact Ht; apply B; assumption|]. split; [exact C|].
      intros Hw. destruct (D Hw) as (W1 & W2). cbn [app] in *.
      assert (P : forall m, put_node s2 t (Some (File x)) (firstn m ds) = s2 (firstn m ds)).
      { intros m. apply put_other. intros X. symmetry in X. exact (td m X). }
      split; [rewrite <- W1; exact (P 0)|]. cbn [app]. intros k2 Hk.
      destruct (W2 k2 Hk) as [W|W]; [left; rewrite P; exact W|right; intros m Hm; rewrite P; apply W; exact Hm].
  Qed.
  Lemma script_done : forall s, way s [] ds -> s p <> Some Dir -> s t <> Some Dir ->
    exists s2, batch loc (steps ds ++ rest) s [] = (true, s2, ds) /\ s2 p = Some (File new755) /\ s2 t = None /\ only_changes s s2 ds p t.
  Proof.
    pose proof pt as Hpt. assert (Htp : t <> p) by (intros X; apply Hpt; symmetry; exact X).
    intros s Hw Hp Ht. destruct (steps_ok loc ds s [] Hw) as (s1 & E1 & Hd & _). cbn [app] in *.
    pose proof (steps_prefix loc ds (length (steps ds)) s [] true s1 ds) as Q. rewrite firstn_all in Q. specialize (Q E1). cbn [app] in Q.
    assert (Q1 : s1 p = s p) by (apply Q; exact pd). assert (Q2 : s1 t = s t) by (apply Q; exact td).
    rewrite batch_app, E1. unfold rest. cbn [batch]. unfold exec. rewrite Hloc, Hd. fold t p. rewrite Q2.
    set (s2 := put_node s1 t (Some (File new))).
    replace (match s t with Some Dir => None | _ => Some (s2, ds) end) with (Some (s2, ds)) by (destruct (s t) as [[|]|]; congruence).
    assert (E2p : s2 p = s p) by (unfold s2; rewrite put_other by exact Hpt; exact Q1).
    assert (E2t : s2 t = Some (File new)) by (unfold s2; apply put_same).
    fold p. rewrite E2p.
    assert (G : exists s3, (match s p with
                   | Some Dir => Some (s2, ds)
                   | Some (File x) => Some (put_node s2 p (Some (File {| f_data := f_data x; f_time := f_time x; f_mode := x755 |})), ds)
                   | None => Some (s2, ds)
                   end) = Some (s3, ds) /\ s3 t = Some (File new) /\ s3 p <> Some Dir /\ (forall q, q <> p -> s3 q = s2 q)).
    { destruct (s p) as [[|x]|] eqn:Ep; [congruence| |].
      - eexists. split; [reflexivity|]. split; [rewrite put_other by exact Htp; exact E2t|].
        split; [rewrite put_same; discriminate|]. intros q Hq. apply put_other. exact Hq.
      - exists s2. split; [reflexivity|]. split; [exact E2t|]. split; [congruence|auto]. }
    destruct G as (s3 & E3 & T3 & P3 & O3). rewrite E3. fold t. rewrite T3.
    set (s4 := put_node s3 t (Some (File {| f_data := f_data new; f_time := f_time new; f_mode := x755 |}))).
    assert (E4t : s4 t = Some (File new755)) by (unfold s4; apply put_same).
    assert (E4p : s4 p = s3 p) by (unfold s4; apply put_other; exact Hpt).
    fold t p. rewrite E4t, E4p.
    exists (put_node (put_node s4 p (Some (File new755))) t None).
    split; [destruct (s3 p) as [[|]|]; [congruence|reflexivity|reflexivity]|].
    split; [rewrite put_other by exact Hpt; apply put_same|]. split; [apply put_same|].
    intros q A B C. rewrite put_other by exact B. rewrite put_other by exact A. unfold s4. rewrite put_other by exact B.
    rewrite O3 by exact A. unfold s2. rewrite put_other by exact B. apply Q. exact C.
  Qed.
End Script.

Lemma server_path_eq a : server_path a = server_dirs a ++ [filename a].
Proof. destruct a; vm_compute; reflexivity. Qed.
Lemma clear_is_way s ds : clear_way s ds <-> way s [] ds.
Proof. unfold clear_way, way. cbn [app]. tauto. Qed.

(** The file names of the script are the ones expected. *)
Theorem C67_place :
  server_path Linux = tools_linux ++ [rsync_server] /\ server_dirs Linux = tools_linux /\
  server_path Windows = tools_windows ++ [rsync_server_exe] /\ server_dirs Windows = tools_windows /\
  fuse_path = tools_linux ++ [cdc_fuse] /\ lib_path = tools_linux ++ [libfuse].
Proof. vm_compute. repeat split; reflexivity. Qed.
(** Deployment puts the new server, executable and with its time, where the start command looks for it,
    creates the directories it needs, leaves no temporary file and changes nothing else. *)
Theorem C67_deployed : forall a uid loc s new,
  uid <> [] -> loc (filename a) = Some new ->
  clear_way s (server_dirs a) -> s (server_path a) <> Some Dir -> s (temp_path a uid) <> Some Dir ->
  exists s2 cwd, batch loc (server_script a uid) s [] = (true, s2, cwd) /\
    s2 (server_path a) = Some (File (mkf (f_data new) (f_time new) x755)) /\
    s2 (temp_path a uid) = None /\
    only_changes s s2 (server_dirs a) (server_path a) (temp_path a uid).
Proof.
  intros a uid loc s new Hu Hl Hw Hp Ht. rewrite server_path_eq in *. apply clear_is_way in Hw.
  destruct (script_done loc (server_dirs a) (filename a) uid new Hu Hl s Hw Hp Ht) as (s2 & E & A & B & C).
  exists s2, (server_dirs a). split; [exact E|]. split; [exact A|]. split; [exact B|exact C].
Qed.
(** Wherever it is interrupted, the server is the old one or the new one, complete. *)
Theorem C67_atomic : forall a uid loc s s2 new,
  uid <> [] -> loc (filename a) = Some new -> broken loc (server_script a uid) s s2 ->
  (s2 (server_path a) = s (server_path a) \/
   (exists old, s (server_path a) = Some (File old) /\ s2 (server_path a) = Some (File (mkf (f_data old) (f_time old) x755))) \/
   s2 (server_path a) = Some (File (mkf (f_data new) (f_time new) x755))) /\
  only_changes s s2 (server_dirs a) (server_path a) (temp_path a uid).
Proof.
  intros a uid loc s s2 new Hu Hl Hb. rewrite server_path_eq.
  destruct (script_broken loc (server_dirs a) (filename a) uid new Hu Hl s s2 Hb) as (A & B & _). split; [exact A|exact B].
Qed.
(** ... and the next deployment succeeds. *)
Theorem C67_recovers : forall a uid uid2 loc s s2 new,
  uid <> [] -> uid2 <> [] -> loc (filename a) = Some new ->
  clear_way s (server_dirs a) -> s (server_path a) <> Some Dir -> s (temp_path a uid) <> Some Dir -> s (temp_path a uid2) <> Some Dir ->
  broken loc (server_script a uid) s s2 -> uid2 <> uid ->
  exists s3 cwd, batch loc (server_script a uid2) s2 [] = (true, s3, cwd) /\
    s3 (server_path a) = Some (File (mkf (f_data new) (f_time new) x755)).
Proof.
  intros a uid uid2 loc s s2 new Hu Hu2 Hl Hw Hp Ht Ht2 Hb Hne. rewrite server_path_eq in *. apply clear_is_way in Hw.
  destruct (script_broken loc (server_dirs a) (filename a) uid new Hu Hl s s2 Hb) as (A & B & C & D).
  destruct (script_done loc (server_dirs a) (filename a) uid2 new Hu2 Hl s2 (D Hw) (C Hp)) as (s3 & E & P & _).
  - rewrite B; [exact Ht2| | |].
    + intros X. symmetry in X. exact (pt (server_dirs a) (filename a) uid2 Hu2 X).
    + unfold temp_path. intros X. apply app_inv_head in X. injection X as X. apply app_inv_head in X. exact (Hne X).
    + exact (td (server_dirs a) (filename a) uid2).
  - exists s3, (server_dirs a). split; [exact E|exact P].
Qed.

Lemma fuse_done loc (ds : path) (ff lf : str) s fuse lib : ff <> lf ->
  loc ff = Some fuse -> loc lf = Some lib -> way s [] ds -> s (ds ++ [ff]) <> Some Dir -> s (ds ++ [lf]) <> Some Dir ->
  exists s2 cwd, batch loc (steps ds ++ [Put ff ff; Put lf lf; Chmod ff false]) s [] = (true, s2, cwd) /\
    s2 (ds ++ [ff]) = Some (File (mkf (f_data fuse) (f_time fuse) x755)) /\ s2 (ds ++ [lf]) = Some (File lib) /\
    only_changes s s2 ds (ds ++ [ff]) (ds ++ [lf]).
Proof.
  intros Hne Hf Hl Hw Hp Hq.
  destruct (steps_ok loc ds s [] Hw) as (s1 & E1 & Hd & _). cbn [app] in *.
  pose proof (steps_prefix loc ds (length (steps ds)) s [] true s1 ds) as Q. rewrite firstn_all in Q. specialize (Q E1). cbn [app] in Q.
  assert (Hnd : forall x m, ds ++ [x] <> firstn m ds).
  { intros x m X. apply (f_equal (@length (list N))) in X. rewrite app_length, firstn_length in X. cbn in X. lia. }
  assert (Hfl : ds ++ [ff] <> ds ++ [lf]) by (intros X; apply app_inv_head in X; congruence).
  assert (Hlf : ds ++ [lf] <> ds ++ [ff]) by (intros X; apply Hfl; symmetry; exact X).
  assert (Q1 : s1 (ds ++ [ff]) = s (ds ++ [ff])) by (apply Q; apply Hnd). assert (Q2 : s1 (ds ++ [lf]) = s (ds ++ [lf])) by (apply Q; apply Hnd).
  assert (Hdp : ds <> ds ++ [ff]) by apply longer.
  rewrite batch_app, E1. cbn [batch]. unfold exec. rewrite Hf, Hd.
  set (pf := ds ++ [ff]) in *. set (pl := ds ++ [lf]) in *.
  rewrite Q1. set (s2 := put_node s1 pf (Some (File fuse))).
  replace (match s pf with Some Dir => None | _ => Some (s2, ds) end) with (Some (s2, ds)) by (destruct (s pf) as [[|]|]; congruence).
  rewrite Hl. assert (D2 : s2 ds = Some Dir) by (unfold s2; rewrite put_other by exact Hdp; exact Hd).
  rewrite D2. assert (L2 : s2 pl = s pl) by (unfold s2; rewrite put_other by exact Hlf; exact Q2).
  fold pl. rewrite L2.
  set (s3 := put_node s2 pl (Some (File lib))).
  replace (match s pl with Some Dir => None | _ => Some (s3, ds) end) with (Some (s3, ds)) by (destruct (s pl) as [[|]|]; congruence).
  assert (F3 : s3 pf = Some (File fuse)) by (unfold s3; rewrite put_other by exact Hfl; apply put_same). fold pf. rewrite F3.
  eexists _, ds. split; [reflexivity|]. split; [apply put_same|].
  split; [rewrite put_other by exact Hlf; unfold s3; apply put_same|].
  intros q A B C. rewrite put_other by exact A. unfold s3. rewrite put_other by exact B. unfold s2. rewrite put_other by exact A. apply Q. exact C.
Qed.
Lemma fuse_script_eq : fuse_script = steps (dir_parts (bin_dir Linux)) ++ [Put fuse_file fuse_file; Put lib_file lib_file; Chmod fuse_file false].
Proof. vm_compute. reflexivity. Qed.
Lemma fuse_path_eq : fuse_path = dir_parts (bin_dir Linux) ++ [fuse_file]. Proof. reflexivity. Qed.
Lemma lib_path_eq : lib_path = dir_parts (bin_dir Linux) ++ [lib_file]. Proof. reflexivity. Qed.
(** FUSE is put in place directly: complete when the script is ... *)
Theorem C67_fuse_deployed : forall loc s fuse lib,
  loc fuse_file = Some fuse -> loc lib_file = Some lib ->
  clear_way s (dir_parts (bin_dir Linux)) -> s fuse_path <> Some Dir -> s lib_path <> Some Dir ->
  exists s2 cwd, batch loc fuse_script s [] = (true, s2, cwd) /\
    s2 fuse_path = Some (File (mkf (f_data fuse) (f_time fuse) x755)) /\ s2 lib_path = Some (File lib) /\
    only_changes s s2 (dir_parts (bin_dir Linux)) fuse_path lib_path.
Proof.
  rewrite fuse_script_eq, fuse_path_eq, lib_path_eq. generalize (dir_parts (bin_dir Linux)) as ds.
  assert (Hne : fuse_file <> lib_file) by discriminate. revert Hne. generalize fuse_file as ff, lib_file as lf.
  intros ff lf Hne ds loc s fuse lib Hf Hl Hw Hp Hq. apply clear_is_way in Hw.
  exact (fuse_done loc ds ff lf s fuse lib Hne Hf Hl Hw Hp Hq).
Qed.
(** ... but an interruption leaves half a binary in place of a working one. *)
Theorem C67_fuse_atomic_refuted :
  ~ (forall loc s s2 fuse, loc fuse_file = Some fuse -> broken loc fuse_script s s2 ->
       s2 fuse_path = s fuse_path \/ exists x, s2 fuse_path = Some (File x) /\ f_data x = f_data fuse).
Proof.
  set (old := mkf [1;2]%N 5%N x755). set (new := mkf [3;4]%N 6%N x755).
  set (s := fun q : path => if list_eq_dec (list_eq_dec N.eq_dec) q fuse_path then Some (File old)
                            else if Nat.leb (length q) 3 then Some Dir else None).
  set (loc := fun _ : str => Some new). intros H.
  pose proof (H loc s (put_node s fuse_path (Some (File (mkf [3]%N 9%N x755)))) new eq_refl) as X.
  destruct X as [X|(x & X & Y)].
  - assert (Hb : exists sx, batch loc (firstn 6 fuse_script) s [] = (true, sx, dir_parts (bin_dir Linux)) /\ sx = s) by (eexists; split; vm_compute; reflexivity).
    destruct Hb as (sx & Hb & ->).
    refine (Within loc fuse_script s 6 fuse_file fuse_file s (dir_parts (bin_dir Linux)) new (mkf [3]%N 9%N x755) 1 Hb eq_refl eq_refl _ eq_refl).
    vm_compute. discriminate.
  - rewrite put_same in X. vm_compute in X. discriminate X.
  - rewrite put_same in X. injection X as <-. discriminate Y.
Qed.
Example C67_example :
  let s := fun q : path => match q with [] => Some Dir | _ => None end in
  let loc := fun n : str => if list_eq_dec N.eq_dec n (filename Linux) then Some (mkf [7;7;7]%N 1700000000%N 420%N) else None in
  clear_way s (server_dirs Linux) /\
  (let '(ok, s2, _) := batch loc (server_script Linux [55%N]) s [] in
   ok = true /\ s2 (server_path Linux) = Some (File (mkf [7;7;7]%N 1700000000%N x755))).
Proof.
  cbv zeta. split.
  - split; [reflexivity|]. intros n Hn. destruct n; [left; reflexivity|right]. intros m Hm. destruct m; [lia|reflexivity].
  - vm_compute. split; reflexivity.
Qed.
