(** Proofs for C56. *)
From Verif Require Import Base ListX ModelPathFilter SpecSessions ModelSessions.
From Verif Require SpecPathFilter PropPathFilter.
Local Notation str := (list N).

Lemma seqb_true a b : seqb a b = true <-> a = b.
Proof. unfold seqb. destruct (str_dec a b); split; auto; discriminate. Qed.
Lemma seqb_same a : seqb a a = true.
Proof. now apply seqb_true. Qed.
Lemma seqb_false a b : seqb a b = false <-> a <> b.
Proof. unfold seqb. destruct (str_dec a b); split; auto; try discriminate. contradiction. Qed.
Lemma mem_In i l : mem i l = true <-> In i l.
Proof.
  unfold mem. rewrite existsb_exists. split.
  - intros (x & H & E). apply seqb_true in E. now subst.
  - intros H. exists i. split; [exact H|apply seqb_same].
Qed.
Lemma mem_false i l : mem i l = false <-> ~ In i l.
Proof.
  rewrite <- mem_In. destruct (mem i l); split; intros H; auto; try discriminate. exfalso. now apply H.
Qed.
Lemma NoDup_app_snoc (x : str) l : NoDup l -> ~ In x l -> NoDup (l ++ [x]).
Proof.
  induction l as [|y l IH]; intros N H; cbn; [repeat constructor; auto|]. inversion N; subst. constructor.
  - rewrite in_app_iff. cbn. intros [X|[X|[]]]; [contradiction|]. apply H. cbn. auto.
  - apply IH; [assumption|]. intros X. apply H. cbn. auto.
Qed.
Lemma without_In j i l : In j (without i l) <-> In j l /\ j <> i.
Proof. unfold without. rewrite filter_In, negb_true_iff, seqb_false. split; intros (A & B); auto. Qed.
Lemma without_NoDup i l : NoDup l -> NoDup (without i l).
Proof. intros H. unfold without. now apply NoDup_filter. Qed.

(** The table *)
Lemma get_put_same k m t : get k (put k m t) = Some m.
Proof. induction t as [|(k2 & m2) t IH]; cbn; [now rewrite seqb_same|]. destruct (seqb k k2) eqn:E; cbn; [now rewrite seqb_same|]. now rewrite E. Qed.
Lemma get_put_other k k2 m t : k2 <> k -> get k2 (put k m t) = get k2 t.
Proof.
  intros N. induction t as [|(k3 & m3) t IH]; cbn; [rewrite (proj2 (seqb_false _ _)); auto|]. destruct (seqb k k3) eqn:E; cbn.
  - apply seqb_true in E. subst k3. rewrite (proj2 (seqb_false k2 k)) by auto. reflexivity.
  - now rewrite IH.
Qed.
Lemma get_erase_other k k2 t : k2 <> k -> get k2 (erase k t) = get k2 t.
Proof.
  intros N. induction t as [|(k3 & m3) t IH]; [reflexivity|]. unfold erase in *. cbn [filter fst get]. destruct (seqb k k3) eqn:E; cbn [negb].
  - apply seqb_true in E. subst k3. rewrite (proj2 (seqb_false k2 k)) by auto. exact IH.
  - cbn [get]. now rewrite IH.
Qed.
Lemma get_In k m t : get k t = Some m -> In (k, m) t.
Proof. induction t as [|(k2 & m2) t IH]; cbn; [discriminate|]. destruct (seqb k k2) eqn:E; intros H; [|auto]. apply seqb_true in E. inversion H; subst. auto. Qed.
Lemma In_get k m t : NoDup (map fst t) -> In (k, m) t -> get k t = Some m.
Proof.
  induction t as [|(k2 & m2) t IH]; intros N H; [destruct H|]. cbn in N. inversion N as [|? ? Ni N2]; subst. cbn [get]. destruct H as [H|H].
  - inversion H; subst. now rewrite seqb_same.
  - destruct (seqb k k2) eqn:E; [|auto]. apply seqb_true in E. subst k2. exfalso. apply Ni. now apply (in_map fst) in H.
Qed.
Lemma get_erase_same k t : get k (erase k t) = None.
Proof.
  destruct (get k (erase k t)) as [m|] eqn:E; [|reflexivity]. apply get_In in E. unfold erase in E. apply filter_In in E. destruct E as (_ & E). cbn in E. rewrite seqb_same in E. discriminate.
Qed.
Lemma put_keys k m t : forall x, In x (map fst (put k m t)) <-> x = k \/ In x (map fst t).
Proof.
  induction t as [|(k2 & m2) t IH]; intros x; cbn; [intuition|]. destruct (seqb k k2) eqn:E; cbn.
  - apply seqb_true in E. subst. intuition.
  - rewrite IH. intuition.
Qed.
Lemma put_NoDup k m t : NoDup (map fst t) -> NoDup (map fst (put k m t)).
Proof.
  induction t as [|(k2 & m2) t IH]; intros N; cbn; [repeat constructor; auto|]. cbn in N. inversion N as [|? ? Ni N2]; subst. destruct (seqb k k2) eqn:E; cbn.
  - apply seqb_true in E. subst. constructor; auto.
  - constructor; [|auto]. rewrite put_keys. intros [X|X]; [|contradiction]. apply seqb_false in E. congruence.
Qed.
Lemma erase_NoDup k t : NoDup (map fst t) -> NoDup (map fst (erase k t)).
Proof.
  induction t as [|(k2 & m2) t IH]; intros N; [exact N|]. cbn in N. inversion N as [|? ? Ni N2]; subst. unfold erase in *. cbn [filter fst]. destruct (seqb k k2); cbn [negb map fst]; [auto|].
  constructor; [|auto]. intros H. apply Ni. apply in_map_iff in H. destruct H as ((a & b) & <- & H). apply filter_In in H. destruct H as (H & _). now apply (in_map fst) in H.
Qed.

Record wf (t : table) : Prop := mkwf {
  w_keys : NoDup (map fst t);
  w_inst : forall k m, get k t = Some m -> NoDup (m_sessions m);
  w_one : forall i k1 k2, streams t i k1 -> streams t i k2 -> k1 = k2 }.
Lemma wf_nil : wf [].
Proof. constructor; [constructor|discriminate|]. intros i k1 k2 (m & H & _). discriminate. Qed.

Lemma streams_put t k m i j : streams (put k m t) i j <-> (j = k /\ In i (m_sessions m)) \/ (j <> k /\ streams t i j).
Proof.
  unfold streams. destruct (str_dec j k) as [->|N].
  - rewrite get_put_same. split.
    + intros (m2 & E & H). inversion E; subst. auto.
    + intros [(_ & H)|(N & _)]; [eauto|contradiction].
  - rewrite get_put_other by auto. split; [auto|]. intros [(E & _)|(_ & H)]; [contradiction|exact H].
Qed.
Lemma streams_erase t k i j : streams (erase k t) i j <-> j <> k /\ streams t i j.
Proof.
  unfold streams. destruct (str_dec j k) as [->|N].
  - rewrite get_erase_same. split; [intros (m & E & _); discriminate|intros (N & _); contradiction].
  - rewrite get_erase_other by auto. tauto.
Qed.
Lemma idle_put t k m j : idle (put k m t) j <-> (j = k /\ m_sessions m = []) \/ (j <> k /\ idle t j).
Proof.
  unfold idle. destruct (str_dec j k) as [->|N].
  - rewrite get_put_same. split.
    + intros (m2 & E & H). inversion E; subst. auto.
    + intros [(_ & H)|(N & _)]; [eauto|contradiction].
  - rewrite get_put_other by auto. split; [auto|]. intros [(E & _)|(_ & H)]; [contradiction|exact H].
Qed.
Lemma idle_erase t k j : idle (erase k t) j <-> j <> k /\ idle t j.
Proof.
  unfold idle. destruct (str_dec j k) as [->|N].
  - rewrite get_erase_same. split; [intros (m & E & _); discriminate|intros (N & _); contradiction].
  - rewrite get_erase_other by auto. tauto.
Qed.

(** Changing one entry *)
Lemma wf_put t k m : wf t -> NoDup (m_sessions m) -> (forall i, In i (m_sessions m) -> forall k2, streams t i k2 -> k2 = k) -> wf (put k m t).
Proof.
  intros [Wk Wi Wo] N H. constructor.
  - now apply put_NoDup.
  - intros k2 m2 E. destruct (str_dec k2 k) as [->|X]; [rewrite get_put_same in E; inversion E; subst; exact N|]. rewrite get_put_other in E by auto. eauto.
  - intros i k1 k2 H1 H2. rewrite streams_put in H1, H2. destruct H1 as [(-> & H1)|(N1 & H1)], H2 as [(-> & H2)|(N2 & H2)]; auto.
    + symmetry. eauto.
    + eauto.
    + eauto.
Qed.
Lemma wf_erase t k : wf t -> wf (erase k t).
Proof.
  intros [Wk Wi Wo]. constructor.
  - now apply erase_NoDup.
  - intros k2 m2 E. destruct (str_dec k2 k) as [->|X]; [rewrite get_erase_same in E; discriminate|]. rewrite get_erase_other in E by auto. eauto.
  - intros i k1 k2 H1 H2. rewrite streams_erase in H1, H2. destruct H1, H2. eauto.
Qed.

Lemma find_session_some i t k m : wf t -> find_session i t = Some (k, m) -> get k t = Some m /\ In i (m_sessions m).
Proof.
  intros W H. assert (X : In (k, m) t /\ In i (m_sessions m)).
  { clear W. induction t as [|(k2 & m2) t IH]; cbn in H; [discriminate|]. destruct (mem i (m_sessions m2)) eqn:E; [|destruct (IH H); cbn; auto]. inversion H; subst. apply mem_In in E. cbn. auto. }
  destruct X as (X & Y). split; [|exact Y]. apply In_get; [apply W|exact X].
Qed.
Lemma find_session_none i t : find_session i t = None -> forall k, ~ streams t i k.
Proof.
  intros H k (m & E & HI). apply get_In in E. induction t as [|(k2 & m2) t IH]; [destruct E|]. cbn in H. destruct (mem i (m_sessions m2)) eqn:X; [discriminate|]. destruct E as [E|E]; [|auto].
  inversion E; subst. apply mem_false in X. contradiction.
Qed.

(** What may change: all but the sessions of [i] is as before. *)
Definition only (i : str) (t t2 : table) : Prop := forall j k, j <> i -> (streams t2 j k <-> streams t j k).
Definition gone (i : str) (t t2 : table) : Prop := forall j k, streams t2 j k <-> streams t j k /\ j <> i.
Lemma gone_only i t t2 : gone i t t2 -> only i t t2.
Proof. intros G j k N. rewrite (G j k). tauto. Qed.

Lemma put_without t k m i : wf t -> get k t = Some m -> In i (m_sessions m) -> forall l fl dn, (forall j, In j l <-> In j (m_sessions m) /\ j <> i) -> NoDup l ->
  wf (put k (mkms l fl dn) t) /\ gone i t (put k (mkms l fl dn) t).
Proof.
  intros W E HI l fl dn L N. split.
  - apply wf_put; [exact W|exact N|]. cbn [m_sessions]. intros j H k2 S. apply L in H. apply (w_one t W j k2 k S). exists m. tauto.
  - intros j k2. rewrite streams_put. cbn [m_sessions]. split.
    + intros [(-> & H)|(N2 & H)].
      * apply L in H. split; [exists m; tauto|tauto].
      * split; [exact H|]. intros ->. apply N2. apply (w_one t W i); [exact H|]. exists m. auto.
    + intros (S & N2). destruct (str_dec k2 k) as [->|X]; [left; split; [reflexivity|]|right; auto]. apply L. split; [|exact N2]. destruct S as (m2 & E2 & H). congruence.
Qed.

Lemma stop_internal_spec e i t a t2 : wf t -> stop_internal e i t = (a, t2) -> wf t2 /\ only i t t2 /\
  match a with
  | AOk => gone i t t2 /\ (exists k, streams t i k) /\ (forall k, idle t2 k -> idle t k)
  | ANotFound => t2 = t /\ forall k, ~ streams t i k
  | AError => (t2 = t /\ stop_ok e i = false) \/ (gone i t t2 /\ exists k m, get k t = Some m /\ m_failed m = true /\ In i (m_sessions m))
  | ACrash => False
  end.
Proof.
  intros W H. unfold stop_internal in H. destruct (find_session i t) as [(k & m)|] eqn:F.
  2:{ inversion H; subst. split; [exact W|]. split; [intros j k _; tauto|]. split; [reflexivity|]. now apply find_session_none. }
  destruct (find_session_some _ _ _ _ W F) as (E & HI). destruct (stop_ok e i) eqn:So; cbn [negb] in H.
  2:{ inversion H; subst. split; [exact W|]. split; [intros j k2 _; tauto|auto]. }
  assert (Lw : forall j, In j (without i (m_sessions m)) <-> In j (m_sessions m) /\ j <> i) by (intros j; apply without_In).
  assert (Nw : NoDup (without i (m_sessions m))) by (apply without_NoDup; exact (w_inst t W k m E)).
  destruct (without i (m_sessions m)) as [|x l] eqn:Wi.
  - destruct (m_failed m) eqn:Mf; inversion H; subst.
    + destruct (put_without t k m i W E HI [] true true Lw Nw) as (W2 & G). split; [exact W2|]. split; [now apply gone_only|]. right. split; [exact G|]. eauto.
    + assert (G : gone i t (erase k t)).
      { intros j k2. rewrite streams_erase. split.
        - intros (N2 & S). split; [exact S|]. intros ->. apply N2. apply (w_one t W i); [exact S|]. exists m. auto.
        - intros (S & N2). split; [|exact S]. intros ->. destruct S as (m2 & E2 & H2). assert (m2 = m) as -> by congruence. exact (proj2 (Lw j) (conj H2 N2)). }
      split; [now apply wf_erase|]. split; [now apply gone_only|]. split; [exact G|]. split; [exists k, m; auto|]. intros k2. rewrite idle_erase. tauto.
  - inversion H; subst. destruct (put_without t k m i W E HI (x :: l) (m_failed m) (m_down m) Lw Nw) as (W2 & G). split; [exact W2|]. split; [now apply gone_only|]. split; [exact G|].
    split; [exists k, m; auto|]. intros k2. rewrite idle_put. cbn. intros [(_ & X)|(_ & X)]; [discriminate|exact X].
Qed.

(** MultiSession::StartSession, once no one streams to [i]. *)
Lemma ms_start_spec e i k m t a t2 : wf t -> get k t = Some m -> (forall k2, ~ streams t i k2) -> ms_start e i k m t = (a, t2) -> wf t2 /\
  match a with
  | AOk => forall j k2, streams t2 j k2 <-> streams t j k2 \/ (j = i /\ k2 = k)
  | AError => t2 = t /\ (m_failed m = true \/ start_ok e i = false \/ ack_ok e i = false)
  | ACrash => t2 = t /\ m_down m = true
  | ANotFound => False
  end.
Proof.
  intros W E No H. unfold ms_start in H. destruct (mem i (m_sessions m)) eqn:Me.
  { apply mem_In in Me. exfalso. apply (No k). exists m. auto. }
  destruct (m_failed m) eqn:Mf; [inversion H; subst; auto|]. destruct (start_ok e i) eqn:So; cbn [negb] in H; [|inversion H; subst; auto].
  destruct (m_down m) eqn:Md; [inversion H; subst; auto|]. destruct (ack_ok e i) eqn:Ak; cbn [negb] in H; [|inversion H; subst; auto].
  apply mem_false in Me. inversion H; subst. split.
  - apply wf_put; [exact W| |].
    + cbn. apply NoDup_app_snoc; [exact (w_inst t W k m E)|exact Me].
    + cbn. intros j HI k2 S. apply in_app_or in HI. destruct HI as [HI|[<-|[]]]; [|exfalso; exact (No k2 S)]. apply (w_one t W j k2 k S). exists m. auto.
  - intros j k2. rewrite streams_put. cbn [m_sessions]. rewrite in_app_iff. cbn. split.
    + intros [(-> & [HI|[<-|[]]])|(N2 & S)]; auto. left. exists m. auto.
    + intros [S|(-> & ->)]; [|left; auto]. destruct (str_dec k2 k) as [->|X]; [|right; auto]. left. split; [reflexivity|]. left. destruct S as (m2 & E2 & HI). congruence.
Qed.

Lemma streams_put_new t k m j k2 : get k t = None -> m_sessions m = [] -> streams (put k m t) j k2 <-> streams t j k2.
Proof.
  intros E M. rewrite streams_put, M. cbn. split; [intros [(_ & [])|(_ & H)]; exact H|]. intros S. right. split; [|exact S]. intros ->. destruct S as (m2 & E2 & _). congruence.
Qed.
Lemma wf_put_new t k m : wf t -> m_sessions m = [] -> wf (put k m t).
Proof. intros W M. apply wf_put; [exact W|rewrite M; constructor|rewrite M; intros i []]. Qed.

Section Manager.
Variable key : str -> str.

Lemma start_session_spec e i dir t a t2 : wf t -> start_session key e i dir t = (a, t2) -> wf t2 /\ only i t t2 /\
  match a with
  | AOk => forall k, streams t2 i k <-> k = key dir
  | AError => forall k, streams t2 i k -> streams t i k
  | ACrash => (forall k, streams t2 i k -> streams t i k) /\ exists k m, get k t2 = Some m /\ m_down m = true /\ m_failed m = false
  | ANotFound => False
  end.
Proof.
  intros W H. unfold start_session in H. destruct (valid_dir e) eqn:Vd; cbn [negb] in H.
  2:{ inversion H; subst. destruct (stop_internal e i t) as (a0 & t0) eqn:S. destruct (stop_internal_spec _ _ _ _ _ W S) as (W2 & O & P). cbn [snd]. split; [exact W2|]. split; [exact O|].
      intros k X. destruct a0; [|destruct P as (-> & _); exact X|destruct P as [(-> & _)|(G & _)]; [exact X|]|contradiction].
      - destruct P as (G & _). apply G in X. tauto.
      - apply G in X. tauto. }
  cbn zeta in H. destruct (match get (key dir) t with Some m => mem i (m_sessions m) | None => false end) eqn:Re.
  - destruct (get (key dir) t) as [m|] eqn:E; [|discriminate]. apply mem_In in Re.
    assert (Here : streams t i (key dir)) by (exists m; auto).
    destruct (healthy e i) eqn:He.
    { inversion H; subst. split; [exact W|]. split; [intros j k _; tauto|]. intros k. split; [intros S; exact (w_one t2 W i _ _ S Here)|intros ->; exact Here]. }
    destruct (stop_ok e i) eqn:So; cbn [negb] in H.
    2:{ inversion H; subst. split; [exact W|]. split; [intros j k _; tauto|]. auto. }
    destruct (put_without t (key dir) m i W E Re (without i (m_sessions m)) (m_failed m) (m_down m) (fun j => without_In j i _) (without_NoDup _ _ (w_inst t W _ _ E))) as (W2 & G).
    assert (No : forall k2, ~ streams (put (key dir) (mkms (without i (m_sessions m)) (m_failed m) (m_down m)) t) i k2) by (intros k2 S; apply G in S; tauto).
    destruct (ms_start_spec _ _ _ _ _ _ _ W2 (get_put_same _ _ _) No H) as (W3 & P). split; [exact W3|]. destruct a.
    + split; [intros j k N; rewrite P, (G j k); tauto|]. intros k. rewrite P. split; [intros [S|(_ & ->)]; [exfalso; exact (No k S)|reflexivity]|auto].
    + contradiction.
    + destruct P as (-> & _). split; [now apply gone_only|]. intros k S. exfalso. exact (No k S).
    + destruct P as (-> & Dn). split; [now apply gone_only|]. split; [intros k S; exfalso; exact (No k S)|]. exists (key dir). eexists. split; [apply get_put_same|]. cbn in *. split; [exact Dn|].
      unfold ms_start in H. destruct (mem _ _); [discriminate|]. cbn in H. destruct (m_failed m); [discriminate|reflexivity].
  - assert (H' : (let '(a, t1) := stop_internal e i t in
        match a with
        | AError | ACrash => (AError, t1)
        | AOk | ANotFound =>
            match get (key dir) t1 with
            | Some m => ms_start e i (key dir) m t1
            | None => if init_ok e then let m := mkms [] false false in ms_start e i (key dir) m (put (key dir) m t1) else (AError, t1)
            end
        end) = (a, t2)) by (destruct (get (key dir) t); exact H). clear H.
    destruct (stop_internal e i t) as (a0 & t1) eqn:S. destruct (stop_internal_spec _ _ _ _ _ W S) as (W1 & O & P).
    assert (Go : a0 = AOk \/ a0 = ANotFound \/ a0 = AError) by (destruct a0; tauto).
    destruct Go as [Go|Go].
    2: destruct Go as [Go|Go].
    3:{ subst a0. inversion H'; subst. split; [exact W1|]. split; [exact O|]. intros k X. destruct P as [(-> & _)|(G & _)]; [exact X|apply G in X; tauto]. }
    all: assert (No : forall k, ~ streams t1 i k) by (subst a0; first [destruct P as (G & _); intros k X; apply G in X; tauto | destruct P as (-> & X); exact X]).
    all: assert (H2 : match get (key dir) t1 with
            | Some m => ms_start e i (key dir) m t1
            | None => if init_ok e then let m := mkms [] false false in ms_start e i (key dir) m (put (key dir) m t1) else (AError, t1)
            end = (a, t2)) by (subst a0; exact H'); clear H'.
    all: destruct (get (key dir) t1) as [m|] eqn:E.
    all: try (destruct (ms_start_spec _ _ _ _ _ _ _ W1 E No H2) as (W3 & Q); split; [exact W3|]; destruct a; [
        split; [intros j k N; rewrite Q, <- (O j k N); tauto|intros k; rewrite Q; split; [intros [X|(_ & ->)]; [exfalso; exact (No k X)|reflexivity]|auto]]
      | contradiction
      | destruct Q as (-> & _); split; [exact O|intros k X; exfalso; exact (No k X)]
      | destruct Q as (-> & Dn); split; [exact O|]; split; [intros k X; exfalso; exact (No k X)|]; exists (key dir), m; split; [exact E|]; split; [exact Dn|];
        unfold ms_start in H2; destruct (mem _ _); [discriminate|]; destruct (m_failed m); [discriminate|reflexivity] ]).
    all: destruct (init_ok e); [|inversion H2; subst; split; [exact W1|]; split; [exact O|]; intros k X; exfalso; exact (No k X)].
    all: cbv zeta in H2; set (m0 := mkms [] false false) in *.
    all: assert (Sp : forall j k2, streams (put (key dir) m0 t1) j k2 <-> streams t1 j k2) by (intros; apply streams_put_new; [exact E|reflexivity]).
    all: assert (No2 : forall k, ~ streams (put (key dir) m0 t1) i k) by (intros k X; apply Sp in X; exact (No k X)).
    all: destruct (ms_start_spec _ _ _ _ _ _ _ (wf_put_new _ (key dir) m0 W1 eq_refl) (get_put_same _ _ _) No2 H2) as (W3 & Q); split; [exact W3|]; destruct a; [
        split; [intros j k N; rewrite Q, Sp, <- (O j k N); tauto|intros k; rewrite Q; split; [intros [X|(_ & ->)]; [exfalso; exact (No2 k X)|reflexivity]|auto]]
      | contradiction
      | destruct Q as (-> & _); split; [intros j k N; rewrite Sp; apply O; exact N|intros k X; exfalso; exact (No2 k X)]
      | destruct Q as (_ & Dn); discriminate ].
Qed.

End Manager.

(** ** Stop *)
Lemma matches_glob pat i : SpecPathFilter.nul_free i -> SpecPathFilter.nul_free pat -> i <> [] -> (matches pat i = true <-> SpecPathFilter.glob pat i).
Proof.
  intros Ni Np Ne. assert (Nd : forall p, ~ SpecPathFilter.degenerate p i) by (intros p (X & _); contradiction).
  unfold matches. cbn [filter_is_match r_pattern r_type]. split.
  - destruct (is_match_string pat i) as [b| | |] eqn:E; cbn [bind]; [|discriminate|discriminate|discriminate]. destruct b; [intros _; exact (proj1 (PropPathFilter.C35_answer_is_glob pat i true Ni Np (Nd pat) E) eq_refl)|].
    unfold is_match_string. cbn. discriminate.
  - intros G. rewrite (PropPathFilter.C35_matching_path_accepted pat i Ni (Nd pat) G). reflexivity.
Qed.
Lemma In_match_sessions pat t i : wf t -> (In i (match_sessions pat t) <-> matches pat i = true /\ exists k, streams t i k).
Proof.
  intros W. unfold match_sessions. rewrite in_flat_map. split.
  - intros ((k & m) & H & F). apply filter_In in F. cbn in F. split; [tauto|]. exists k, m. split; [apply In_get; [apply W|exact H]|tauto].
  - intros (M & k & m & E & HI). exists (k, m). split; [now apply get_In|]. apply filter_In. auto.
Qed.
Lemma wf_tail e t : wf (e :: t) -> wf t /\ forall i k, streams t i k -> streams (e :: t) i k.
Proof.
  intros [Wk Wi Wo]. destruct e as (k0 & m0). cbn in Wk. inversion Wk as [|? ? Ni N2]; subst.
  assert (Ge : forall k m, get k t = Some m -> get k ((k0, m0) :: t) = Some m).
  { intros k m H. cbn. destruct (seqb k k0) eqn:E; [|exact H]. apply seqb_true in E. subst. exfalso. apply Ni. apply get_In in H. now apply (in_map fst) in H. }
  assert (St : forall i k, streams t i k -> streams ((k0, m0) :: t) i k) by (intros i k (m & H & HI); exists m; auto).
  split; [|exact St]. constructor; [exact N2|intros k m H; exact (Wi k m (Ge k m H))|]. intros i k1 k2 A B. exact (Wo i k1 k2 (St _ _ A) (St _ _ B)).
Qed.
Lemma match_sessions_NoDup pat : forall t, wf t -> NoDup (match_sessions pat t).
Proof.
  induction t as [|(k & m) t IH]; intros W; [constructor|]. destruct (wf_tail _ _ W) as (W2 & St). unfold match_sessions. cbn [flat_map snd]. fold (match_sessions pat t).
  assert (Nm : NoDup (m_sessions m)) by (apply (w_inst _ W k); cbn; now rewrite seqb_same). assert (Dj : forall i, In i (m_sessions m) -> ~ In i (match_sessions pat t)).
  { intros i HI X. apply (In_match_sessions pat t i W2) in X. destruct X as (_ & k2 & S). assert (k2 = k).
    { apply (w_one _ W i); [exact (St _ _ S)|]. exists m. split; [cbn; now rewrite seqb_same|exact HI]. }
    subst k2. destruct S as (m2 & E & _). apply get_In in E. apply (in_map fst) in E. pose proof (w_keys _ W) as N. cbn in N. inversion N; subst. contradiction. }
  revert Nm Dj. generalize (m_sessions m) as l. induction l as [|x l IHl]; intros N D; [exact (IH W2)|]. inversion N; subst. cbn [filter]. destruct (matches pat x); [|apply IHl; [assumption|intros i HI; apply D; cbn; auto]].
  cbn [app]. constructor; [|apply IHl; [assumption|intros i HI; apply D; cbn; auto]]. rewrite in_app_iff. intros [X|X]; [apply filter_In in X; tauto|]. apply (D x); cbn; auto.
Qed.
Lemma stop_all_spec e : forall l t a t2, wf t -> NoDup l -> (forall i, In i l -> exists k, streams t i k) -> stop_all e l t = (a, t2) -> wf t2 /\
  (forall j k, ~ In j l -> (streams t2 j k <-> streams t j k)) /\ (forall j k, streams t2 j k -> streams t j k) /\
  match a with
  | AOk => (forall j k, streams t2 j k <-> streams t j k /\ ~ In j l) /\ (forall k, idle t2 k -> idle t k)
  | AError => True
  | _ => False
  end.
Proof.
  induction l as [|i l IH]; intros t a t2 W N Al H; cbn [stop_all] in H.
  - inversion H; subst. split; [exact W|]. split; [tauto|]. split; [auto|]. split; [|auto]. intros j k. cbn. tauto.
  - inversion N as [|? ? Ni N2]; subst. destruct (stop_internal e i t) as (a1 & t1) eqn:S. destruct (stop_internal_spec _ _ _ _ _ W S) as (W1 & O & P). destruct a1.
    + destruct P as (G & _ & Id). assert (Al1 : forall j, In j l -> exists k, streams t1 j k).
      { intros j HI. destruct (Al j) as (k & X); [cbn; auto|]. exists k. apply G. split; [exact X|]. intros ->. contradiction. }
      destruct (IH t1 a t2 W1 N2 Al1 H) as (W2 & O2 & Sub & Q). split; [exact W2|]. split.
      * intros j k Nj. cbn in Nj. rewrite O2 by tauto. rewrite (G j k). split; [tauto|]. intros X. split; [exact X|]. intros ->. apply Nj. auto.
      * split; [intros j k X; apply Sub in X; apply G in X; tauto|]. destruct a; auto. destruct Q as (Q & Id2). split; [|auto]. intros j k. rewrite Q, (G j k). cbn.
        split; [intros ((A & B) & C); split; [exact A|]; intros [D|D]; [apply B; auto|contradiction]|]. intros (A & B). split; [split; [exact A|intros ->; apply B; auto]|tauto].
    + destruct P as (_ & X). destruct (Al i) as (k & Y); [cbn; auto|]. exfalso. exact (X k Y).
    + inversion H; subst. split; [exact W1|]. split; [intros j k Nj; apply O; intros ->; apply Nj; cbn; auto|]. split; [|exact Logic.I].
      intros j k X. destruct P as [(-> & _)|(G & _)]; [exact X|apply G in X; tauto].
    + contradiction.
Qed.

(** ** The whole service *)
Lemma stop_all_idle e k : forall l t a t2, wf t -> stop_all e l t = (a, t2) -> idle t k -> idle t2 k.
Proof.
  induction l as [|i l IH]; intros t a t2 W P Ik; cbn in P; [inversion P; subst; exact Ik|].
  assert (One : forall a1 t1, stop_internal e i t = (a1, t1) -> get k t1 = get k t).
  { clear IH. intros a1 t1 S. unfold stop_internal in S. destruct (find_session i t) as [(k0 & m)|] eqn:F; [|inversion S; reflexivity]. destruct (find_session_some _ _ _ _ W F) as (G & HI).
    assert (Nk : k <> k0). { intros ->. destruct Ik as (m2 & G2 & E2). rewrite G in G2. inversion G2; subst. rewrite E2 in HI. destruct HI. }
    destruct (stop_ok e i); cbn [negb] in S; [|inversion S; reflexivity]. destruct (without i (m_sessions m)); [destruct (m_failed m)|]; inversion S; subst; try (now apply get_put_other). now apply get_erase_other. }
  destruct (stop_internal e i t) as (a1 & t1) eqn:S. specialize (One a1 t1 eq_refl). assert (I1 : idle t1 k) by (destruct Ik as (m & G & E); exists m; now rewrite One).
  destruct a1; try (inversion P; subst; exact I1). exact (IH _ _ _ (proj1 (stop_internal_spec _ _ _ _ _ W S)) P I1).
Qed.
Lemma get_shutdown e : forall t b t2, shutdown_loop e t = (b, t2) -> map fst t2 = map fst t /\
  forall k m2, get k t2 = Some m2 -> exists m, get k t = Some m /\ (forall i, In i (m_sessions m2) -> In i (m_sessions m)) /\ (NoDup (m_sessions m) -> NoDup (m_sessions m2)) /\ (b = true -> m_sessions m2 = []).
Proof.
  assert (Each : forall l b l2, stop_each e l = (b, l2) -> (forall i, In i l2 -> In i l) /\ (NoDup l -> NoDup l2)).
  { induction l as [|i l IH]; intros b l2 H; cbn in H; [inversion H; subst; auto|]. destruct (stop_ok e i); [|inversion H; subst; auto]. destruct (IH _ _ H) as (A & B). split; [intros j HI; cbn; auto|]. intros N. inversion N; subst. auto. }
  induction t as [|(k0 & m0) t IH]; intros b t2 H; cbn in H.
  - inversion H; subst. split; [reflexivity|discriminate].
  - unfold ms_shutdown in H. destruct (stop_each e (m_sessions m0)) as (b1 & l1) eqn:Se. destruct (Each _ _ _ Se) as (Ea & Eb). destruct b1.
    + destruct (negb (m_failed m0)) eqn:Mf.
      * destruct (shutdown_loop e t) as (b2 & r2) eqn:Sl. inversion H; subst. destruct (IH _ _ eq_refl) as (Mk & Mg). split; [cbn; now rewrite Mk|]. intros k m2 G. cbn in G |- *. destruct (seqb k k0); [|eauto].
        inversion G; subst. exists m0. split; [reflexivity|]. split; [intros i []|]. split; [intros _; constructor|reflexivity].
      * inversion H; subst. split; [reflexivity|]. intros k m2 G. cbn in G |- *. destruct (seqb k k0); [|exists m2; repeat split; auto; discriminate].
        inversion G; subst. exists m0. split; [reflexivity|]. split; [intros i []|]. split; [intros _; constructor|discriminate].
    + inversion H; subst. split; [reflexivity|]. intros k m2 G. cbn in G |- *. destruct (seqb k k0); [|exists m2; repeat split; auto; discriminate].
      inversion G; subst. exists m0. split; [reflexivity|]. split; [exact Ea|]. split; [exact Eb|discriminate].
Qed.
Lemma shutdown_spec e t a t2 : wf t -> shutdown e t = (a, t2) -> wf t2 /\ (forall j k, streams t2 j k -> streams t j k) /\ (a = AOk -> t2 = []).
Proof.
  intros W H. unfold shutdown in H. destruct (shutdown_loop e t) as (b & t3) eqn:S. destruct (get_shutdown _ _ _ _ S) as (Mk & Mg). destruct b; inversion H; subst.
  - split; [apply wf_nil|]. split; [|reflexivity]. intros j k (m & X & _). discriminate.
  - assert (Sub : forall j k, streams t2 j k -> streams t j k) by (intros j k (m2 & G & HI); destruct (Mg _ _ G) as (m & G2 & In2 & _); exists m; auto).
    split; [|split; [exact Sub|discriminate]]. constructor.
    + rewrite Mk. apply W.
    + intros k m2 G. destruct (Mg _ _ G) as (m & G2 & _ & Nd & _). exact (Nd (w_inst t W k m G2)).
    + intros i k1 k2 A B. exact (w_one t W i k1 k2 (Sub _ _ A) (Sub _ _ B)).
Qed.
Lemma get_runner_fails k0 t k : get k (runner_fails k0 t) = match get k t with Some m => Some (if seqb k0 k then mkms (m_sessions m) true (m_down m) else m) | None => None end.
Proof.
  induction t as [|(k2 & m2) t IH]; [reflexivity|]. unfold runner_fails in *. cbn [map fst snd]. destruct (seqb k0 k2) eqn:E; cbn [get]; destruct (seqb k k2) eqn:E2; auto.
  - apply seqb_true in E, E2. subst. now rewrite seqb_same.
  - apply seqb_true in E2. subst. now rewrite E.
Qed.
Lemma streams_runner_fails k0 t i k : streams (runner_fails k0 t) i k <-> streams t i k.
Proof.
  unfold streams. rewrite get_runner_fails. destruct (get k t) as [m|]; [|split; intros (m & X & _); discriminate]. split.
  - intros (m2 & E & HI). exists m. split; [reflexivity|]. inversion E; subst. destruct (seqb k0 k); exact HI.
  - intros (m2 & E & HI). inversion E; subst. eexists. split; [reflexivity|]. destruct (seqb k0 k); exact HI.
Qed.
Lemma runner_fails_keys k0 t : map fst (runner_fails k0 t) = map fst t.
Proof. unfold runner_fails. rewrite map_map. apply map_ext. intros (k & m). cbn. destruct (seqb k0 k); reflexivity. Qed.
Lemma wf_runner_fails k0 t : wf t -> wf (runner_fails k0 t).
Proof.
  intros [Wk Wi Wo]. constructor.
  - now rewrite runner_fails_keys.
  - intros k m H. rewrite get_runner_fails in H. destruct (get k t) as [m2|] eqn:E; [|discriminate]. inversion H; subst. destruct (seqb k0 k); eauto. exact (Wi k m2 E).
  - intros i k1 k2 A B. rewrite streams_runner_fails in A, B. eauto.
Qed.
Section Manager2.
Variable key : str -> str.
Lemma perform_wf e o t a t2 : wf t -> perform key e o t = (a, t2) -> wf t2.
Proof.
  intros W H. destruct o as [i d|p| |d]; cbn in H.
  - exact (proj1 (start_session_spec key _ _ _ _ _ _ W H)).
  - unfold stop_session in H. destruct (match_sessions p t) as [|x l] eqn:M; [inversion H; subst; exact W|]. rewrite <- M in H.
    refine (proj1 (stop_all_spec _ _ _ _ _ W (match_sessions_NoDup p t W) _ H)). intros i HI. apply (In_match_sessions p t i W) in HI. tauto.
  - exact (proj1 (shutdown_spec _ _ _ _ W H)).
  - inversion H; subst. now apply wf_runner_fails.
Qed.
Lemma history_wf h t : history key h t -> wf t.
Proof. unfold history. intros H. induction H as [|h t e o a t2 _ IH P]; [apply wf_nil|exact (perform_wf _ _ _ _ _ IH P)]. Qed.

(** ** Entries of the table *)

(** How one entry may change by Start and Stop. *)
Inductive entry_step : option ms -> option ms -> Prop :=
| es_same x : entry_step x x
| es_new l : entry_step None (Some (mkms l false false))
| es_sessions m l : (m_failed m = true -> m_sessions m <> []) -> entry_step (Some m) (Some (mkms l (m_failed m) (m_down m)))
| es_gone m : m_failed m = false -> entry_step (Some m) None
| es_dead m : m_failed m = true -> m_sessions m <> [] -> entry_step (Some m) (Some (mkms [] true true)).
Lemma stop_internal_entry e i t a t2 : wf t -> stop_internal e i t = (a, t2) -> forall k, entry_step (get k t) (get k t2).
Proof.
  intros W H k. unfold stop_internal in H. destruct (find_session i t) as [(k0 & m)|] eqn:F; [|inversion H; subst; constructor]. destruct (find_session_some _ _ _ _ W F) as (E & HI).
  assert (Ne : m_sessions m <> []) by (intros X; rewrite X in HI; destruct HI).
  destruct (stop_ok e i); cbn [negb] in H; [|inversion H; subst; constructor]. destruct (without i (m_sessions m)) as [|x l]; [destruct (m_failed m) eqn:Mf|].
  - inversion H; subst. destruct (str_dec k k0) as [->|N]; [rewrite get_put_same, E; now constructor|rewrite get_put_other by auto; constructor].
  - inversion H; subst. destruct (str_dec k k0) as [->|N]; [rewrite get_erase_same, E; now constructor|rewrite get_erase_other by auto; constructor].
  - inversion H; subst. destruct (str_dec k k0) as [->|N]; [rewrite get_put_same, E; constructor; auto|rewrite get_put_other by auto; constructor].
Qed.
Lemma ms_start_entry e i k0 m t a t2 : get k0 t = Some m -> ms_start e i k0 m t = (a, t2) -> forall k, entry_step (get k t) (get k t2).
Proof.
  intros E H k. unfold ms_start in H. destruct (mem i (m_sessions m)); [inversion H; subst; constructor|]. destruct (m_failed m) eqn:Mf; [inversion H; subst; constructor|].
  destruct (start_ok e i); cbn [negb] in H; [|inversion H; subst; constructor]. destruct (m_down m) eqn:Md; [inversion H; subst; constructor|]. destruct (ack_ok e i); cbn [negb] in H; inversion H; subst; [|constructor].
  destruct (str_dec k k0) as [->|N]; [|rewrite get_put_other by auto; constructor]. rewrite get_put_same, E. generalize (es_sessions m (m_sessions m ++ [i])). rewrite Mf, Md. intros X. apply X. discriminate.
Qed.
(** A predicate on entries kept by every step is kept by Start and Stop. *)
Lemma start_entry (Q : option ms -> Prop) : (forall x y, entry_step x y -> Q x -> Q y) -> forall e i dir t a t2, wf t -> start_session key e i dir t = (a, t2) -> forall k, Q (get k t) -> Q (get k t2).
Proof.
  intros St e i dir t a t2 W H k Hk. unfold start_session in H. destruct (valid_dir e); cbn [negb] in H.
  2:{ inversion H; subst. destruct (stop_internal e i t) as (a0 & t0) eqn:S. exact (St _ _ (stop_internal_entry _ _ _ _ _ W S k) Hk). }
  cbv zeta in H. destruct (match get (key dir) t with Some m => mem i (m_sessions m) | None => false end) eqn:Re.
  - destruct (get (key dir) t) as [m|] eqn:E; [|discriminate]. apply mem_In in Re. destruct (healthy e i); [inversion H; subst; exact Hk|]. destruct (stop_ok e i); cbn [negb] in H; [|inversion H; subst; exact Hk].
    refine (St _ _ (ms_start_entry _ _ _ _ _ _ _ (get_put_same _ _ _) H k) _). refine (St _ _ _ Hk). destruct (str_dec k (key dir)) as [->|N]; [|rewrite get_put_other by auto; constructor].
    rewrite get_put_same, E. constructor. intros _ X. rewrite X in Re. destruct Re.
  - assert (H' : (let '(a, t1) := stop_internal e i t in
        match a with
        | AError | ACrash => (AError, t1)
        | AOk | ANotFound =>
            match get (key dir) t1 with
            | Some m => ms_start e i (key dir) m t1
            | None => if init_ok e then let m := mkms [] false false in ms_start e i (key dir) m (put (key dir) m t1) else (AError, t1)
            end
        end) = (a, t2)) by (destruct (get (key dir) t); exact H). clear H.
    destruct (stop_internal e i t) as (a0 & t1) eqn:S. assert (H1 : Q (get k t1)) by exact (St _ _ (stop_internal_entry _ _ _ _ _ W S k) Hk).
    assert (H2 : t2 = t1 \/ match get (key dir) t1 with
            | Some m => ms_start e i (key dir) m t1
            | None => if init_ok e then let m := mkms [] false false in ms_start e i (key dir) m (put (key dir) m t1) else (AError, t1)
            end = (a, t2)) by (destruct a0; auto; left; inversion H'; reflexivity).
    destruct H2 as [->|H2]; [exact H1|]. destruct (get (key dir) t1) as [m|] eqn:E; [exact (St _ _ (ms_start_entry _ _ _ _ _ _ _ E H2 k) H1)|].
    destruct (init_ok e); [|inversion H2; subst; exact H1]. cbv zeta in H2. refine (St _ _ (ms_start_entry _ _ _ _ _ _ _ (get_put_same _ _ _) H2 k) _). refine (St _ _ _ H1).
    destruct (str_dec k (key dir)) as [->|N]; [|rewrite get_put_other by auto; constructor]. rewrite get_put_same, E. constructor.
Qed.
Lemma stop_all_entry (Q : option ms -> Prop) : (forall x y, entry_step x y -> Q x -> Q y) -> forall e l t a t2, wf t -> stop_all e l t = (a, t2) -> forall k, Q (get k t) -> Q (get k t2).
Proof.
  intros St e. induction l as [|i l IH]; intros t a t2 W H k Hk; cbn in H; [inversion H; subst; exact Hk|]. destruct (stop_internal e i t) as (a1 & t1) eqn:S.
  assert (H1 : Q (get k t1)) by exact (St _ _ (stop_internal_entry _ _ _ _ _ W S k) Hk). destruct a1; try (inversion H; subst; exact H1). exact (IH _ _ _ (proj1 (stop_internal_spec _ _ _ _ _ W S)) H k H1).
Qed.
Lemma perform_entry (Q : option ms -> Prop) : (forall x y, entry_step x y -> Q x -> Q y) -> forall e o t a t2, wf t -> (o <> Shutdown) -> (forall d, o <> RunnerFails d) -> perform key e o t = (a, t2) -> forall k, Q (get k t) -> Q (get k t2).
Proof.
  intros St e o t a t2 W N1 N2 H k Hk. destruct o as [i d|p| |d]; cbn in H.
  - exact (start_entry Q St _ _ _ _ _ _ W H k Hk).
  - unfold stop_session in H. destruct (match_sessions p t) as [|x l]; [inversion H; subst; exact Hk|exact (stop_all_entry Q St _ _ _ _ _ W H k Hk)].
  - contradiction.
  - exfalso. exact (N2 d eq_refl).
Qed.

Definition dead (x : option ms) : Prop := exists m, x = Some m /\ m_sessions m = [] /\ m_failed m = true.
Lemma dead_step x y : entry_step x y -> dead x -> dead y.
Proof.
  intros H (m & -> & M & F). inversion H; subst.
  - now exists m.
  - match goal with X : m_failed m = true -> _ |- _ => exfalso; exact (X F M) end.
  - congruence.
  - exists (mkms [] true true). auto.
Qed.
Definition calm (x : option ms) : Prop := forall m, x = Some m -> m_down m = true -> m_failed m = true.
Lemma calm_step x y : entry_step x y -> calm x -> calm y.
Proof. intros H C. inversion H; subst; auto; intros m2 E; inversion E; subst; cbn; auto; discriminate. Qed.
Definition clean (x : option ms) : Prop := forall m, x = Some m -> m_failed m = false /\ m_down m = false.
Lemma clean_step x y : entry_step x y -> clean x -> clean y.
Proof.
  intros H C. inversion H as [x0|l|m l F|m F|m F Ne]; subst; auto; intros m2 E; inversion E; subst; cbn; auto. destruct (C m eq_refl). congruence.
Qed.
Lemma perform_dead e o t a t2 k : wf t -> o <> Shutdown -> perform key e o t = (a, t2) -> dead (get k t) -> dead (get k t2).
Proof.
  intros W N H D. destruct o as [i d|p| |d].
  - refine (perform_entry dead dead_step _ _ _ _ _ W N _ H k D). discriminate.
  - refine (perform_entry dead dead_step _ _ _ _ _ W N _ H k D). discriminate.
  - contradiction.
  - cbn in H. inversion H; subst. rewrite get_runner_fails. destruct D as (m & -> & M & F). eexists. split; [reflexivity|]. destruct (seqb (key d) k); auto.
Qed.
Lemma perform_calm e o t a t2 : wf t -> o <> Shutdown -> perform key e o t = (a, t2) -> (forall k, calm (get k t)) -> forall k, calm (get k t2).
Proof.
  intros W N H D k. specialize (D k). destruct o as [i d|p| |d].
  - refine (perform_entry calm calm_step _ _ _ _ _ W N _ H k D). discriminate.
  - refine (perform_entry calm calm_step _ _ _ _ _ W N _ H k D). discriminate.
  - contradiction.
  - cbn in H. inversion H; subst. rewrite get_runner_fails. destruct (get k t) as [m|]; [|discriminate]. intros m2 E. inversion E; subst. destruct (seqb (key d) k); [reflexivity|]. apply D. reflexivity.
Qed.
Lemma runs_wf t0 h t : wf t0 -> runs key t0 h t -> wf t.
Proof. intros W. induction 1 as [|h t e o a t2 _ IH P]; [exact W|]. exact (perform_wf _ _ _ _ _ IH P). Qed.
Lemma runs_dead t0 h t k : wf t0 -> dead (get k t0) -> runs key t0 h t -> ~ In Shutdown (map fst h) -> dead (get k t).
Proof.
  intros W D. induction 1 as [|h t e o a t2 R IH P]; intros N; [exact D|]. rewrite map_app, in_app_iff in N. cbn in N.
  apply (perform_dead e o t a t2 k (runs_wf _ _ _ W R)); [|exact P|apply IH; tauto]. intros ->. apply N. right. left. reflexivity.
Qed.
Lemma runs_calm t0 h t : wf t0 -> (forall k, calm (get k t0)) -> runs key t0 h t -> ~ In Shutdown (map fst h) -> forall k, calm (get k t).
Proof.
  intros W D. induction 1 as [|h t e o a t2 R IH P]; intros N; [exact D|]. rewrite map_app, in_app_iff in N. cbn in N.
  apply (perform_calm e o t a t2 (runs_wf _ _ _ W R)); [|exact P|apply IH; tauto]. intros ->. apply N. right. left. reflexivity.
Qed.
Lemma runs_clean t0 h t : wf t0 -> (forall k, clean (get k t0)) -> runs key t0 h t -> ~ In Shutdown (map fst h) -> (forall d, ~ In (RunnerFails d) (map fst h)) -> forall k, clean (get k t).
Proof.
  intros W D. induction 1 as [|h t e o a t2 R IH P]; intros N N2; [exact D|]. intros k. rewrite map_app, in_app_iff in N. cbn in N.
  refine (perform_entry clean clean_step e o t a t2 (runs_wf _ _ _ W R) _ _ P k (IH _ _ k)).
  - intros ->. apply N. right. left. reflexivity.
  - intros d ->. apply (N2 d). rewrite map_app, in_app_iff. right. left. reflexivity.
  - tauto.
  - intros d HI. apply (N2 d). rewrite map_app, in_app_iff. now left.
Qed.
(** A dead directory cannot be streamed. *)
Lemma start_dead e i dir t : wf t -> dead (get (key dir) t) -> fst (start_session key e i dir t) = AError.
Proof.
  intros W D. unfold start_session. destruct (valid_dir e); [|reflexivity]. cbn [negb]. cbv zeta. pose proof D as (m & E & M & F). rewrite E, M. cbn [mem existsb].
  destruct (stop_internal e i t) as (a0 & t1) eqn:S. pose proof (dead_step _ _ (stop_internal_entry _ _ _ _ _ W S (key dir)) D) as (m1 & E1 & M1 & F1). rewrite E1.
  assert (X : fst (ms_start e i (key dir) m1 t1) = AError) by (unfold ms_start; rewrite M1, F1; reflexivity). destruct a0; auto.
Qed.
(** With nothing broken, Start succeeds. *)
Lemma start_good e i dir t : wf t -> (forall k, clean (get k t)) -> valid_dir e = true -> init_ok e = true -> start_ok e i = true -> ack_ok e i = true -> stop_ok e i = true ->
  fst (start_session key e i dir t) = AOk.
Proof.
  intros W C V Ii So Ak St. unfold start_session. rewrite V. cbn [negb]. cbv zeta.
  assert (Ms : forall k m t1, ~ In i (m_sessions m) -> m_failed m = false -> m_down m = false -> fst (ms_start e i k m t1) = AOk).
  { intros k m t1 A B D. unfold ms_start. rewrite (proj2 (mem_false _ _) A), B, So, D, Ak. reflexivity. }
  destruct (match get (key dir) t with Some m => mem i (m_sessions m) | None => false end) eqn:Re.
  - destruct (get (key dir) t) as [m|] eqn:E; [|discriminate]. destruct (healthy e i); [reflexivity|]. rewrite St. cbn [negb]. destruct (C (key dir) m E) as (F & D). apply Ms; cbn; auto. rewrite without_In. tauto.
  - assert (G : fst (let '(a, t1) := stop_internal e i t in
        match a with
        | AError | ACrash => (AError, t1)
        | AOk | ANotFound =>
            match get (key dir) t1 with
            | Some m => ms_start e i (key dir) m t1
            | None => if init_ok e then let m := mkms [] false false in ms_start e i (key dir) m (put (key dir) m t1) else (AError, t1)
            end
        end) = AOk); [|destruct (get (key dir) t); exact G].
    destruct (stop_internal e i t) as (a0 & t1) eqn:S. destruct (stop_internal_spec _ _ _ _ _ W S) as (W1 & _ & P).
    assert (C1 : clean (get (key dir) t1)) by exact (clean_step _ _ (stop_internal_entry _ _ _ _ _ W S (key dir)) (C (key dir))).
    assert (No : a0 <> AError -> forall k, ~ streams t1 i k).
    { intros Na k X. destruct a0; [destruct P as (G & _); apply G in X; tauto|destruct P as (-> & Y); exact (Y k X)|contradiction|contradiction]. }
    assert (Na : a0 <> AError). { intros ->. destruct P as [(_ & X)|(_ & k & m & E & F & _)]; [congruence|]. destruct (C k m E). congruence. }
    assert (R : fst (match get (key dir) t1 with
            | Some m => ms_start e i (key dir) m t1
            | None => if init_ok e then let m := mkms [] false false in ms_start e i (key dir) m (put (key dir) m t1) else (AError, t1)
            end) = AOk).
    { destruct (get (key dir) t1) as [m|] eqn:E; [|rewrite Ii; cbv zeta; apply Ms; cbn; auto]. destruct (C1 m eq_refl) as (F & D). apply Ms; auto. intros HI. apply (No Na (key dir)). exists m. auto. }
    destruct a0; auto; contradiction.
Qed.
End Manager2.
