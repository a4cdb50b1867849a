From Verif Require Import Base ListX Str ModelChunkMap SpecChunkMap.
Local Open Scope N_scope.

Lemma seqb_eq a b : seqb a b = true <-> a = b.
Proof. unfold seqb. destruct (scmp a b) eqn:E; rewrite <- scmp_eq, E; split; congruence. Qed.
Lemma seqb_neq a b : seqb a b = false <-> a <> b.
Proof. rewrite <- seqb_eq. destruct (seqb a b); split; congruence. Qed.
Lemma seqb_refl a : seqb a a = true.
Proof. now apply seqb_eq. Qed.

Lemma ffind_put {B} k (v : B) l q : ffind q (fput k v l) = if list_eq_dec N.eq_dec q k then Some v else ffind q l.
Proof.
  induction l as [|[k' v'] l IH]; cbn [fput ffind].
  - destruct (list_eq_dec N.eq_dec q k) as [->|N]; [now rewrite seqb_refl|]. apply seqb_neq in N. now rewrite N.
  - destruct (seqb k k') eqn:E; cbn [ffind].
    + apply seqb_eq in E. subst k'. destruct (list_eq_dec N.eq_dec q k) as [->|N]; [now rewrite seqb_refl|]. apply seqb_neq in N. now rewrite N.
    + rewrite IH. destruct (seqb q k') eqn:E2; [|reflexivity]. apply seqb_eq in E2. subst k'.
      destruct (list_eq_dec N.eq_dec q k) as [->|N]; [rewrite seqb_refl in E; discriminate|reflexivity].
Qed.

Lemma ffind_In {B} k (v : B) l : ffind k l = Some v -> In (k, v) l.
Proof.
  induction l as [|[k' v'] l IH]; cbn; [discriminate|]. destruct (seqb k k') eqn:E; [|auto].
  apply seqb_eq in E. intros [= ->]. subst. now left.
Qed.
Lemma ffind_None {B} k (l : list (bytes * B)) : ffind k l = None <-> ~ In k (map fst l).
Proof.
  induction l as [|[k' v'] l IH]; cbn; [tauto|]. destruct (seqb k k') eqn:E.
  - apply seqb_eq in E. split; [discriminate|]. intros H. exfalso. auto.
  - apply seqb_neq in E. rewrite IH. intuition congruence.
Qed.
Lemma In_ffind {B} k (v : B) l : NoDup (map fst l) -> In (k, v) l -> ffind k l = Some v.
Proof.
  induction l as [|[k' v'] l IH]; cbn; [tauto|]. intros N. apply NoDup_cons_iff in N. destruct N as (N1 & N2).
  intros [E|I].
  - inversion E. now rewrite seqb_refl.
  - destruct (seqb k k') eqn:E; [|auto]. apply seqb_eq in E. subst. exfalso. apply N1. change k' with (fst (k', v)). now apply in_map.
Qed.
Lemma fput_keys {B} k (v : B) l x : In x (map fst (fput k v l)) <-> x = k \/ In x (map fst l).
Proof.
  induction l as [|[k' v'] l IH]; cbn; [intuition|]. destruct (seqb k k') eqn:E; cbn.
  - apply seqb_eq in E. subst. intuition.
  - rewrite IH. intuition.
Qed.
Lemma fput_NoDup {B} k (v : B) l : NoDup (map fst l) -> NoDup (map fst (fput k v l)).
Proof.
  induction l as [|[k' v'] l IH]; cbn; intros N.
  - constructor; auto.
  - apply NoDup_cons_iff in N. destruct N as (N1 & N2). destruct (seqb k k') eqn:E; cbn.
    + apply seqb_eq in E. subst. now constructor.
    + constructor; auto. rewrite fput_keys. apply seqb_neq in E. intuition.
Qed.
Lemma ferase_keys {B} k (l : list (bytes * B)) x : In x (map fst (ferase k l)) -> In x (map fst l).
Proof. induction l as [|[k' v'] l IH]; cbn; [tauto|]. destruct (seqb k k'); cbn; intuition. Qed.
Lemma ferase_NoDup {B} k (l : list (bytes * B)) : NoDup (map fst l) -> NoDup (map fst (ferase k l)).
Proof.
  induction l as [|[k' v'] l IH]; cbn; intros N; [constructor|].
  apply NoDup_cons_iff in N. destruct N as (N1 & N2). destruct (seqb k k'); cbn; auto.
  constructor; auto. intros H. apply N1. eapply ferase_keys; eauto.
Qed.
Lemma ffind_erase {B} k (l : list (bytes * B)) q : NoDup (map fst l) ->
  ffind q (ferase k l) = if list_eq_dec N.eq_dec q k then None else ffind q l.
Proof.
  induction l as [|[k' v'] l IH]; cbn; intros N.
  - now destruct (list_eq_dec N.eq_dec q k).
  - apply NoDup_cons_iff in N. destruct N as (N1 & N2). destruct (seqb k k') eqn:E; cbn [ffind].
    + apply seqb_eq in E. subst. destruct (list_eq_dec N.eq_dec q k') as [->|N]; [now apply ffind_None|]. apply seqb_neq in N. now rewrite N.
    + rewrite IH by auto. destruct (seqb q k') eqn:E2; [|reflexivity]. apply seqb_eq in E2. subst.
      destruct (list_eq_dec N.eq_dec k' k) as [->|N]; [rewrite seqb_refl in E; discriminate|reflexivity].
Qed.

Definition sum_chunks (l : list (path * cfile)) : Z := fold_right (fun x z => (clen (c_chunks (snd x)) + z)%Z) 0%Z l.

Lemma sum_put p f l : sum_chunks (fput p f l) = (sum_chunks l - clen (c_chunks (fget p l)) + clen (c_chunks f))%Z.
Proof.
  unfold fget. induction l as [|[k v] l IH]; cbn [fput sum_chunks fold_right ffind snd].
  - cbn. unfold clen. cbn. lia.
  - destruct (seqb p k); cbn [sum_chunks fold_right snd]; [lia|].
    change (fold_right _ 0%Z (fput p f l)) with (sum_chunks (fput p f l)). rewrite IH.
    change (fold_right _ 0%Z l) with (sum_chunks l). lia.
Qed.
Lemma sum_erase p f l : ffind p l = Some f -> sum_chunks (ferase p l) = (sum_chunks l - clen (c_chunks f))%Z.
Proof.
  induction l as [|[k v] l IH]; cbn [ferase sum_chunks fold_right ffind snd]; [discriminate|].
  destruct (seqb p k).
  - intros [= ->]. change (fold_right _ 0%Z l) with (sum_chunks l). lia.
  - intros H. cbn [sum_chunks fold_right snd]. change (fold_right _ 0%Z (ferase p l)) with (sum_chunks (ferase p l)).
    change (fold_right _ 0%Z l) with (sum_chunks l). rewrite IH by auto. lia.
Qed.

(** The updates a call queues, and what they describe. *)
Definition upd_of (o : fcop) : list update :=
  match o with
  | OInit p size chunks => [UInit p size chunks] | OAppend p l off => [UAppend p (shift_chunks off l)]
  | ORemove p => [URemove p] | OClear => [UClear] | OFlush _ => [] end.

Definition agrees (l : list (path * cfile)) (m : files) : Prop := forall p, ffind p l = m p.

Lemma apply_agrees o l t m : NoDup (map fst l) -> agrees l m -> t = sum_chunks l ->
  let '(l', t') := fold_left apply_update (upd_of o) (l, t) in
  NoDup (map fst l') /\ agrees l' (described m o) /\ t' = sum_chunks l'.
Proof.
  intros N A T. destruct o as [p size chunks|p ch off|p| |order]; cbn [upd_of fold_left apply_update described].
  - split; [now apply fput_NoDup|]. split; [|rewrite sum_put; cbn; lia].
    intros q. rewrite ffind_put. unfold set. now rewrite A.
  - split; [now apply fput_NoDup|]. split; [|rewrite sum_put; cbn [c_chunks]; unfold clen; rewrite app_length; lia].
    intros q. rewrite ffind_put. unfold set, fget. rewrite !A. reflexivity.
  - destruct (ffind p l) as [f|] eqn:E.
    + split; [now apply ferase_NoDup|]. split; [|rewrite (sum_erase p f); auto; lia].
      intros q. rewrite ffind_erase by auto. unfold set. now rewrite A.
    + split; auto. split; auto. intros q. unfold set. destruct (list_eq_dec N.eq_dec q p) as [->|]; auto.
  - split; [constructor|]. split; [|reflexivity]. intros q. reflexivity.
  - auto.
Qed.

Lemma apply_all us : forall l t m, NoDup (map fst l) -> agrees l m -> t = sum_chunks l ->
  let '(l', t') := fold_left apply_update (flat_map upd_of us) (l, t) in
  NoDup (map fst l') /\ agrees l' (fold_left described us m) /\ t' = sum_chunks l'.
Proof.
  induction us as [|o us IH]; intros l t m N A T; cbn [flat_map fold_left]; [auto|].
  rewrite fold_left_app. pose proof (apply_agrees o l t m N A T) as H.
  destruct (fold_left apply_update (upd_of o) (l, t)) as [l1 t1]. destruct H as (H1 & H2 & H3). now apply IH.
Qed.

(** Index. *)
Lemma index_chunks_bound p : forall chunks n bound acc, n + N.of_nat (length chunks) <= bound ->
  forall id loc, In (id, loc) (index_chunks p n chunks bound acc) <->
    In (id, loc) acc \/ exists i, fst loc = p /\ snd loc = n + N.of_nat i /\ exists off, nth_error chunks i = Some (id, off).
Proof.
  induction chunks as [|c r IH]; intros n bound acc H id loc; cbn [index_chunks].
  - split; [auto|]. intros [?|([|i] & _ & _ & ? & ?)]; auto; discriminate.
  - cbn [length] in H. assert (n <? bound = true) as -> by lia. rewrite IH by lia. cbn [In]. split.
    + intros [[E|E]|(i & A & B & off & C)].
      * inversion E. subst. right. exists 0%nat. split; [reflexivity|]. split; [cbn; lia|]. exists (snd c). cbn. now destruct c.
      * auto.
      * right. exists (S i). split; auto. split; [lia|]. exists off. exact C.
    + intros [E|(i & A & B & off & C)]; [auto|]. destruct i as [|i].
      * cbn in C. inversion C. subst c. left. left. destruct loc. cbn in *. subst. f_equal. f_equal. lia.
      * right. exists i. split; auto. split; [lia|]. exists off. exact C.
Qed.

Lemma build_index_spec l : Forall (fun x => N.of_nat (length (c_chunks (snd x))) < 2 ^ 32) l ->
  forall id loc, In (id, loc) (build_index l) <->
    exists f i off, In (fst loc, f) l /\ snd loc = N.of_nat i /\ nth_error (c_chunks f) i = Some (id, off).
Proof.
  intros H. unfold build_index.
  assert (G : forall acc id loc, In (id, loc) (fold_left (fun acc '(p, f) => index_chunks p 0 (c_chunks f) (N.of_nat (length (c_chunks f)) mod 2 ^ 32) acc) l acc) <->
    In (id, loc) acc \/ exists f i off, In (fst loc, f) l /\ snd loc = N.of_nat i /\ nth_error (c_chunks f) i = Some (id, off)).
  { induction l as [|[p f] l IH]; intros acc id loc; cbn [fold_left].
    - cbn. split; [auto|]. intros [?|(f & i & off & [] & _)]. auto.
    - inversion H as [|? ? H1 H2]; subst. cbn [snd] in H1. rewrite IH by auto. rewrite N.mod_small by auto.
      rewrite index_chunks_bound by lia. cbn [In]. split.
      + intros [[E|(i & A & B & off & C)]|(f' & i & off & A & B)]; auto.
        * right. exists f, i, off. destruct loc; cbn in *. subst. repeat split; auto.
        * right. exists f', i, off. tauto.
      + intros [E|(f' & i & off & [A|A] & B & C)]; auto.
        * inversion A. subst. left. right. exists i. repeat split; auto. eauto.
        * right. exists f', i, off. tauto. }
  intros id loc. rewrite G. split; [intros [[]|?]; auto|auto].
Qed.

(** State of the map after a history. *)
Record MInv (m : fcmap) (flushed pending : list fcop) : Prop := {
  M_upd : fm_updates m = flat_map upd_of pending;
  M_nodup : NoDup (map fst (fm_files m));
  M_files : agrees (fm_files m) (described_by flushed);
  M_total : fm_total m = sum_chunks (fm_files m);
  M_index : exists order, (forall l, Permutation (order l) l) /\ fm_index m = build_index (order (fm_files m)) }.

Lemma flush_MInv m fl pe order : MInv m fl pe -> (forall l, Permutation (order l) l) -> MInv (flush order m) (fl ++ pe) [].
Proof.
  intros [A B C D E] P. unfold flush. pose proof (apply_all pe _ _ _ B C D) as H. rewrite <- A in H.
  unfold described_by in *. rewrite <- (fold_left_app described) in H.
  destruct (fm_updates m) as [|u us] eqn:EU.
  - cbn in H. destruct H as (H1 & H2 & H3). split; auto.
  - destruct (fold_left apply_update (u :: us) (fm_files m, fm_total m)) as [l t]. destruct H as (H1 & H2 & H3).
    split; cbn [fm_updates fm_files fm_index fm_total]; auto. exists order. auto.
Qed.

Lemma step_MInv m fl pe o : MInv m fl pe -> any_order [o] ->
  exists fl' pe', MInv (fcstep m o) fl' pe' /\ described_by (fl' ++ pe') = described_by (fl ++ pe ++ [o]).
Proof.
  intros I AO. inversion AO as [|? ? Ho _]; subst.
  assert (Q : forall u, upd_of o = [u] -> fcstep m o = push m u -> MInv (fcstep m o) fl (pe ++ [o])).
  { intros u E ->. destruct I as [A B C D E0]. split; cbn [push fm_updates fm_files fm_index fm_total]; auto.
    rewrite A, flat_map_app. cbn [flat_map]. now rewrite E. }
  destruct o as [p size chunks|p ch off|p| |order]; cbn [fcstep] in *.
  1-4: exists fl; eexists; split; [eapply Q; reflexivity|reflexivity].
  exists (fl ++ pe), []. split; [now apply flush_MInv|].
  unfold described_by. rewrite app_nil_r, !fold_left_app. reflexivity.
Qed.

Lemma run_MInv ops : any_order ops -> forall m fl pe, MInv m fl pe ->
  exists fl' pe', MInv (fold_left fcstep ops m) fl' pe' /\ described_by (fl' ++ pe') = described_by (fl ++ pe ++ ops).
Proof.
  induction ops as [|o ops IH]; intros AO m fl pe I; cbn [fold_left].
  - exists fl, pe. now rewrite app_nil_r.
  - inversion AO as [|? ? Ho AO']; subst.
    destruct (step_MInv m fl pe o I) as (fl1 & pe1 & J & E); [now constructor|].
    destruct (IH AO' _ _ _ J) as (fl' & pe' & J' & E'). exists fl', pe'. split; auto. rewrite E'.
    unfold described_by in *. rewrite !fold_left_app in *. rewrite E. reflexivity.
Qed.

Lemma init_MInv : MInv fcmap_init [] [].
Proof. split; cbn; auto; [constructor|intros p; reflexivity|]. exists (fun l => l). auto. Qed.

Lemma no_flush_keep ops : no_flush ops -> forall m,
  fm_files (fold_left fcstep ops m) = fm_files m /\ fm_index (fold_left fcstep ops m) = fm_index m /\ fm_total (fold_left fcstep ops m) = fm_total m.
Proof.
  induction 1 as [|o ops Ho _ IH]; intros m; cbn [fold_left]; auto.
  destruct (IH (fcstep m o)) as (A & B & C). rewrite A, B, C. destruct o; try contradiction; auto.
Qed.

Lemma lookup_spec m fl pe : MInv m fl pe -> 
  Forall (fun x => N.of_nat (length (c_chunks (snd x))) < 2 ^ 32) (fm_files m) ->
  forall id,
  (find_chunk m id = Ok None /\ (forall p f, described_by fl p = Some f -> ~ In id (map fst (c_chunks f)))) \/
  (exists p f off n, find_chunk m id = Ok (Some (p, off,
      (match nth_error (c_chunks f) (S n) with Some (_, o) => o | None => c_size f end + 2 ^ 64 - off) mod 2 ^ 64 mod 2 ^ 32)) /\
     described_by fl p = Some f /\ nth_error (c_chunks f) n = Some (id, off)).
Proof.
  intros [A B C D (order & P & E)] S id. unfold find_chunk.
  assert (S' : Forall (fun x => N.of_nat (length (c_chunks (snd x))) < 2 ^ 32) (order (fm_files m))).
  { eapply Permutation_Forall; [symmetry; apply P|exact S]. }
  pose proof (build_index_spec _ S') as X. rewrite <- E in X.
  destruct (ffind id (fm_index m)) as [[p n]|] eqn:F.
  - right. apply ffind_In in F. apply X in F. cbn [fst snd] in F. destruct F as (f & i & off & G1 & -> & G3).
    apply (Permutation_in _ (P _)) in G1. pose proof (In_ffind _ _ _ B G1) as G2. rewrite G2, Nnat.Nat2N.id, G3.
    rewrite Forall_forall in S. specialize (S _ G1). cbn [snd] in S.
    assert (Li : (i < length (c_chunks f))%nat) by (apply nth_error_Some; congruence).
    change (2 ^ 32) with 4294967296 in *. rewrite N.mod_small by lia.
    exists p, f, off, i. split; [|split; [rewrite <- C; exact G2|exact G3]].
    replace (N.to_nat (N.of_nat i + 1)) with (Datatypes.S i) by lia.
    destruct (N.of_nat i + 1 =? N.of_nat (length (c_chunks f))) eqn:Q.
    + assert (nth_error (c_chunks f) (Datatypes.S i) = None) as -> by (apply nth_error_None; lia). reflexivity.
    + destruct (nth_error_lt_Some (c_chunks f) (Datatypes.S i)) as ((? & ?) & ->); [lia|]. reflexivity.
  - left. split; [reflexivity|]. intros p f Hf I. rewrite <- C in Hf. apply ffind_In in Hf.
    apply in_map_iff in I. destruct I as ((id' & off) & Ei & I). cbn in Ei. subst id'. apply In_nth_error in I. destruct I as (i & I).
    apply ffind_None in F. apply F. change id with (fst (id, (p, N.of_nat i))). apply in_map. apply X. cbn [fst snd].
    exists f, i, off. split; [apply (Permutation_in _ (Permutation_sym (P _))); exact Hf|]. auto.
Qed.

(** *** Queue *)
Definition rep (q : list passet) (t : two) : Prop :=
  q = urgent t ++ normal t /\ Forall (fun a => pa_deadline a <> None) (urgent t) /\ Forall (fun a => pa_deadline a = None) (normal t).

Lemma add_rep a q t : rep q t -> rep (queue_add a q) (spec_add a t).
Proof.
  intros (-> & U & N). unfold rep, queue_add, spec_add. destruct (pa_deadline a) eqn:E; cbn [infinite urgent normal].
  - split; [|split; auto].
    + induction U as [|x u Hx U IH]; cbn [insert_before_infinite app].
      * destruct N as [|y n Hy N]; cbn [insert_before_infinite app]; [reflexivity|]. now rewrite Hy.
      * destruct (pa_deadline x); [|congruence]. cbn. now rewrite IH.
    + apply Forall_app. split; auto. constructor; auto. congruence.
  - split; [now rewrite app_assoc|]. split; auto. apply Forall_app. split; auto.
Qed.

Notation accepts := acceptable (only parsing).

Lemma dequeue_list accept q :
  match queue_dequeue accept q with
  | Some (a, q') => exists b c, q = b ++ a :: c /\ q' = b ++ c /\ Forall (fun y => ~ accepts accept y) b /\ accepts accept a
  | None => Forall (fun y => ~ accepts accept y) q
  end.
Proof.
  induction q as [|x q IH]; cbn [queue_dequeue]; [constructor|].
  destruct (match accept with Some f => negb (f x) | None => false end) eqn:G.
  - assert (NA : ~ accepts accept x). { unfold acceptable. destruct accept as [f|]; [|discriminate]. destruct (f x); [discriminate|congruence]. }
    destruct (queue_dequeue accept q) as [[a q']|].
    + destruct IH as (b & c & -> & -> & F & A). exists (x :: b), c. repeat split; auto.
    + constructor; auto.
  - exists [], q. repeat split; auto. unfold acceptable. destruct accept as [f|]; auto. destruct (f x); [reflexivity|discriminate].
Qed.

Lemma app_split {A} (u n b c : list A) x : u ++ n = b ++ x :: c ->
  (exists u', u = b ++ x :: u' /\ c = u' ++ n) \/ (exists n', n = n' ++ x :: c /\ b = u ++ n').
Proof.
  revert u. induction b as [|y b IH]; intros [|z u] E; cbn in *.
  - right. exists []. auto.
  - inversion E; subst. left. exists u. auto.
  - right. exists (y :: b). auto.
  - inversion E; subst. destruct (IH u H1) as [(u' & -> & ->)|(n' & -> & ->)]; [left; eauto|right; eauto].
Qed.

Lemma dequeue_rep accept q t : rep q t ->
  exists t', spec_dequeue (accepts accept) t (option_map fst (queue_dequeue accept q)) t' /\
    rep (match queue_dequeue accept q with Some (_, q') => q' | None => q end) t'.
Proof.
  intros (-> & U & N). destruct t as [u n]. cbn [urgent normal] in *. pose proof (dequeue_list accept (u ++ n)) as D.
  destruct (queue_dequeue accept (u ++ n)) as [[a q']|]; cbn [option_map fst].
  - destruct D as (b & c & E & -> & F & A). apply app_split in E. destruct E as [(u' & -> & ->)|(n' & -> & ->)].
    + exists (mktwo (b ++ u') n). split; [constructor; now constructor|]. split; [cbn; now rewrite app_assoc|]. cbn. split; auto.
      apply Forall_app in U. destruct U as (U1 & U2). inversion U2. apply Forall_app. auto.
    + apply Forall_app in F. destruct F as (F1 & F2). exists (mktwo u (n' ++ c)). split; [apply deq_normal; auto; now constructor|].
      split; [cbn; now rewrite app_assoc|]. cbn. split; auto.
      apply Forall_app in N. destruct N as (U1 & U2). inversion U2. apply Forall_app. auto.
  - apply Forall_app in D. exists (mktwo u n). split; [apply deq_none; tauto|]. split; auto.
Qed.

Lemma is_for_dec key x : seqb (pa_rel x) (fst key) && seqb (pa_name x) (snd key) = true <-> is_for key x.
Proof. unfold is_for. rewrite andb_true_iff, !seqb_eq. reflexivity. Qed.

Lemma scan_normal key d pre : forall n post, Forall (fun a => pa_deadline a = None) n -> (post <> [] \/ True) ->
  Forall (fun a => ~ is_for key a) n /\ prio_scan key d pre post n = pre ++ post ++ n \/
  exists b x c, n = b ++ x :: c /\ Forall (fun a => ~ is_for key a) b /\ is_for key x /\
    prio_scan key d pre post n = pre ++ mkpasset (pa_type x) (pa_rel x) (pa_name x) true d :: post ++ b ++ c.
Proof.
  induction n as [|x n IH]; intros post N _; cbn [prio_scan].
  - left. split; auto. now rewrite app_nil_r.
  - inversion N as [|? ? Hx N']; subst. destruct (seqb (pa_rel x) (fst key) && seqb (pa_name x) (snd key)) eqn:G.
    + right. exists [], x, n. rewrite Hx. cbn. repeat split; auto; now apply is_for_dec.
    + assert (NI : ~ is_for key x) by (rewrite <- is_for_dec; congruence).
      assert ((match post with [] => infinite (pa_deadline x) | _ => true end) = true) as -> by (destruct post; auto; now rewrite Hx).
      destruct (IH (post ++ [x]) N' (or_intror I)) as [(F & E)|(b & y & c & -> & F & Y & E)].
      * left. split; auto. rewrite E, <- !app_assoc. reflexivity.
      * right. exists (x :: b), y, c. split; [reflexivity|]. split; auto. split; auto. rewrite E, <- !app_assoc. reflexivity.
Qed.

Lemma scan_urgent key d n : forall u pre, Forall (fun a => pa_deadline a <> None) u ->
  (Exists (is_for key) u /\ prio_scan key d pre [] (u ++ n) = pre ++ u ++ n) \/
  (Forall (fun a => ~ is_for key a) u /\ prio_scan key d pre [] (u ++ n) = prio_scan key d (pre ++ u) [] n).
Proof.
  induction u as [|x u IH]; intros pre U; cbn [prio_scan app].
  - right. split; auto. now rewrite app_nil_r.
  - inversion U as [|? ? Hx U']; subst. assert (F : infinite (pa_deadline x) = false) by (destruct (pa_deadline x); [reflexivity|congruence]). rewrite F.
    destruct (seqb (pa_rel x) (fst key) && seqb (pa_name x) (snd key)) eqn:G.
    + left. split; [apply Exists_cons_hd; now apply is_for_dec|reflexivity].
    + assert (NI : ~ is_for key x) by (rewrite <- is_for_dec; congruence).
      destruct (IH (pre ++ [x]) U') as [(A & E)|(A & E)]; rewrite E, <- !app_assoc; [left|right]; split; auto.
Qed.

Lemma prioritize_rep key d q t : rep q t ->
  exists t', spec_prioritize key d t t' /\ rep (prio_scan key (Some d) [] [] q) t'.
Proof.
  intros (-> & U & N). destruct t as [u n]. cbn [urgent normal] in *.
  destruct (scan_urgent key (Some d) n u [] U) as [(A & E)|(A & E)]; rewrite E.
  - exists (mktwo u n). split; [now constructor|]. repeat split; auto.
  - cbn [app]. destruct (scan_normal key (Some d) u n [] N (or_intror I)) as [(F & E')|(b & x & c & -> & F & X & E')]; rewrite E'.
    + exists (mktwo u n). split; [apply prio_absent; now apply Forall_app|]. repeat split; auto.
    + eexists. split; [apply prio_move; [exact A|constructor; [exact F|exact X]]|].
      split; [cbn; now rewrite <- app_assoc|]. cbn. split.
      * apply Forall_app. split; auto. constructor; auto. cbn. congruence.
      * apply Forall_app in N. destruct N as (N1 & N2). inversion N2. apply Forall_app. auto.
Qed.

Lemma requests_rep mpt reqs : Forall (fun r => fst r <> None) reqs -> forall q t, rep q t ->
  exists t', spec_requests mpt reqs t t' /\ rep (fold_left (prioritize_one mpt) reqs q) t'.
Proof.
  induction 1 as [|[rc key] reqs Hr _ IH]; intros q t R; cbn [fold_left].
  - exists t. split; [constructor|auto].
  - cbn in Hr. destruct rc as [rc|]; [|congruence]. unfold prioritize_one at 2. cbn [fst snd time_add].
    destruct key as [key|].
    + destruct (prioritize_rep key (rc + mpt) q t R) as (t1 & S1 & R1). destruct (IH _ _ R1) as (t' & S2 & R2).
      exists t'. split; [econstructor; eauto|auto].
    + destruct (IH _ _ R) as (t' & S2 & R2). exists t'. split; [constructor; auto|auto].
Qed.

Lemma qrun_rep mpt ops : finite_requests ops -> forall q t, rep q t ->
  exists t', spec_run mpt t ops t' (snd (qrun mpt q ops)) /\ rep (fst (qrun mpt q ops)) t'.
Proof.
  induction 1 as [|o ops Ho _ IH]; intros q t R; cbn [qrun].
  - exists t. split; [constructor|auto].
  - destruct o as [a|accept|reqs]; cbn [qstep].
    + destruct (IH _ _ (add_rep a q t R)) as (t' & A & B). destruct (qrun mpt (queue_add a q) ops) as [q2 e2]. cbn in *.
      exists t'. split; [constructor; auto|auto].
    + destruct (dequeue_rep accept q t R) as (t1 & A & B).
      destruct (queue_dequeue accept q) as [[a q']|]; cbn [option_map fst] in A;
        destruct (IH _ _ B) as (t' & C & D); [destruct (qrun mpt q' ops) as [q2 e2]|destruct (qrun mpt q ops) as [q2 e2]];
        cbn in *; exists t'; (split; [econstructor; eauto|auto]).
    + destruct (requests_rep mpt reqs Ho q t R) as (t1 & A & B). cbn [queue_prioritize snd].
      destruct (IH _ _ B) as (t' & C & D). destruct (qrun mpt (fold_left (prioritize_one mpt) reqs q) ops) as [q2 e2]. cbn in *.
      exists t'. split; [econstructor; eauto|auto].
Qed.

Definition contents (t : two) : list passet := urgent t ++ normal t.

Lemma first_match_perm ok l a l' : first_match ok l a l' -> Permutation l (a :: l').
Proof. intros []. symmetry. apply Permutation_middle. Qed.

Lemma requests_perm mpt reqs t t' : spec_requests mpt reqs t t' -> Permutation (map ident (contents t)) (map ident (contents t')).
Proof.
  induction 1; auto. rewrite <- IHspec_requests. clear - H. destruct H as [| |u n a n' F M]; auto.
  unfold contents. cbn. rewrite !map_app. apply first_match_perm in M. apply (Permutation_map ident) in M. rewrite M.
  cbn [map]. rewrite <- app_assoc. cbn [app]. reflexivity.
Qed.

Lemma spec_run_perm mpt t ops t' out : spec_run mpt t ops t' out ->
  Permutation (map ident (contents t ++ added ops)) (map ident (returned out ++ contents t')).
Proof.
  induction 1 as [t|t a ops t' out H IH|t accept ops res t1 t' out D H IH|t reqs ops t1 t' out D H IH]; cbn [added returned flat_map app].
  - now rewrite app_nil_r.
  - rewrite <- IH. apply Permutation_map. unfold contents, spec_add.
    destruct (pa_deadline a); cbn [urgent normal]; rewrite <- !app_assoc; cbn [app].
    + apply Permutation_app_head. symmetry. apply Permutation_middle.
    + reflexivity.
  - change (flat_map _ ops) with (added ops). change (flat_map _ out) with (returned out).
    assert (P : Permutation (contents t) (match res with Some a => [a] | None => [] end ++ contents t1)).
    { destruct D as [u n a u' M|u n a n' F M|u n F G]; unfold contents; cbn [urgent normal app].
      - apply first_match_perm in M. now rewrite M.
      - apply first_match_perm in M. rewrite M. symmetry. apply Permutation_middle.
      - reflexivity. }
    rewrite map_app, (Permutation_map ident P), !map_app in *. rewrite <- app_assoc. rewrite IH.
    destruct res; cbn; reflexivity.
  - change (flat_map _ ops) with (added ops). rewrite map_app, (requests_perm _ _ _ _ D), <- map_app. exact IH.
Qed.
