From Verif Require Import Base ListX Str ModelText ProofText ModelChunkMap ProofChunkMap ModelPath SpecPath ModelDisk SpecDisk ProofDisk.
Local Open Scope N_scope.

(** Directories. *)
Lemma hex_digit c : is_hex c -> exists n, n < 16 /\ int_to_hex n = c.
Proof.
  unfold is_hex. intros H. assert (c <= 57 \/ 58 <= c) as [?|?] by lia.
  - exists (c - 48). split; [lia|]. unfold int_to_hex. destruct (N.leb_spec (c - 48) 9); lia.
  - exists (c - 87). split; [lia|]. unfold int_to_hex. destruct (N.leb_spec (c - 87) 9); [lia|].
    destruct (N.leb_spec (c - 87) 15); lia.
Qed.

Lemma dir_names_all a b : is_hex a -> is_hex b -> In [a; b] (dir_names 2).
Proof.
  intros Ha Hb. destruct (hex_digit a Ha) as (x & Hx & <-). destruct (hex_digit b Hb) as (y & Hy & <-).
  apply in_map_iff. exists (N.to_nat (x + 16 * y)). split.
  - rewrite N2Nat.id. cbn [name_of]. 
    assert (N.land (x + 16 * y) 15 = x) as ->.
    { change 15 with (N.ones 4). rewrite N.land_ones. change (2 ^ 4) with 16. rewrite (N.mul_comm 16), N.mod_add by lia. apply N.mod_small; lia. }
    assert (N.shiftr (x + 16 * y) 4 = y) as ->.
    { rewrite N.shiftr_div_pow2. change (2 ^ 4) with 16. rewrite (N.mul_comm 16), N.div_add by lia. rewrite N.div_small by lia. lia. }
    assert (N.land y 15 = y) as ->.
    { change 15 with (N.ones 4). rewrite N.land_ones. change (2 ^ 4) with 16. apply N.mod_small; lia. }
    reflexivity.
  - replace (N.to_nat (2 ^ (N.of_nat 2 * 4))) with 256%nat by reflexivity. apply List.in_seq. lia.
Qed.

Definition join1 (sep : byte) (parent n : bytes) : bytes := match parent with [] => n | _ => parent ++ sep :: n end.

Lemma loop_dirs sep : separator sep -> forall n l depth parent d rest, (n <= depth)%nat -> (2 * n < length l)%nat -> Forall is_hex l ->
  add_seps_loop sep 2 n l = d ++ sep :: rest -> In (join1 sep parent d) (created_dirs sep (dir_names 2) parent depth).
Proof.
  intros Hs. assert (NS : forall c, is_hex c -> c <> sep).
  { unfold is_hex, separator, slash, backslash in *. intros c Hc ->. lia. }
  induction n as [|n IH]; intros l depth parent d rest Hd Hl F E; cbn [add_seps_loop] in E.
  - exfalso. rewrite E in F. apply Forall_app in F. destruct F as (_ & F). inversion F; subst. eapply NS; eauto.
  - destruct depth as [|depth]; [lia|]. destruct l as [|a [|b l]]; [cbn in Hl; lia|cbn in Hl; lia|].
    inversion F as [|? ? Ha F1]; subst. inversion F1 as [|? ? Hb F2]; subst.
    cbn [firstn skipn app] in E. cbn [created_dirs]. apply in_flat_map. exists [a; b]. split; [now apply dir_names_all|].
    cbv zeta. change (match parent with [] => [a; b] | _ :: _ => parent ++ sep :: [a; b] end) with (join1 sep parent [a; b]).
    pose proof (NS a Ha) as Na. pose proof (NS b Hb) as Nb.
    destruct d as [|d1 [|d2 [|d3 d']]]; cbn [app] in E; injection E as E; try congruence.
    + subst. now left.
    + right. match goal with H : add_seps_loop _ _ _ _ = _ |- _ =>
        apply (IH l depth (join1 sep parent [d1; d2])) in H; [|lia|cbn in Hl; lia|auto] end.
      assert (e3 : sep = d3) by assumption. subst a b. clear NS Na Nb Ha Hb F F1. rewrite <- e3.
      assert (J : join1 sep parent (d1 :: d2 :: sep :: d') = join1 sep (join1 sep parent [d1; d2]) d').
      { unfold join1. destruct parent as [|q parent]; [reflexivity|]. cbn [app]. rewrite <- app_assoc. reflexivity. }
      rewrite J. assumption.
Qed.

Lemma cache_path_dirs sep depth id d rest : separator sep -> chunk_id id -> cache_path sep depth id = d ++ sep :: rest ->
  In d (created_dirs sep (dir_names 2) [] depth).
Proof.
  intros Hs (L & B) E. unfold cache_path in E.
  assert (Lh : length (to_hex_string id) = 40%nat) by (rewrite to_hex_length; lia).
  pose proof (hex_chars id B) as F. set (h := to_hex_string id) in *. clearbody h.
  assert (NS : forall c, is_hex c -> c <> sep).
  { unfold is_hex, separator, slash, backslash in *. intros c Hc ->. lia. }
  unfold add_seps in E. destruct h as [|c h]; [discriminate|]. destruct depth as [|depth].
  - exfalso. rewrite E in F. apply Forall_app in F. destruct F as (_ & F). inversion F; subst. eapply NS; eauto.
  - apply (loop_dirs sep Hs _ _ (S depth) []) in E; auto.
    + apply Nat.le_min_r.
    + set (x := ((length (c :: h) - 1) / 2)%nat) in *. pose proof (Nat.mul_div_le (length (c :: h) - 1) 2 ltac:(lia)). fold x in H.
      pose proof (Nat.le_min_l x (S depth)). lia.
Qed.

(** One step refines the map. *)
Section Ref.
Context (sep : byte) (Hs : separator sep) (depth : nat).
Notation cp := (cache_path sep depth).
Notation dec := (list_eq_dec N.eq_dec).

Definition agree (m : cmap) (fs : list dfile) : Prop := cache_dir sep depth fs /\ forall id, chunk_id id -> m id = ffind (cp id) fs.

Lemma agree_put m fs id v : agree m fs -> chunk_id id -> agree (mset m id (Some v)) (fput (cp id) v fs).
Proof.
  intros (C & A) Hid. split; [now apply cache_dir_put|]. intros q Hq. rewrite ffind_put. unfold mset.
  destruct (dec q id) as [->|N]; destruct (dec (cp _) (cp id)) as [e|e]; auto; try congruence.
  apply cache_inj in e; auto. contradiction.
Qed.

Lemma agree_erase m fs id : agree m fs -> chunk_id id -> agree (mset m id None) (ferase (cp id) fs).
Proof.
  intros (C & A) Hid. split; [now apply cache_dir_erase|]. intros q Hq. rewrite ffind_erase by apply C. unfold mset.
  destruct (dec q id) as [->|N]; destruct (dec (cp _) (cp id)) as [e|e]; auto; try congruence.
  apply cache_inj in e; auto. contradiction.
Qed.

Lemma find_sub {B} (fs fs' : list (bytes * B)) p : NoDup (map fst fs) -> NoDup (map fst fs') -> (forall x, In x fs' -> In x fs) ->
  ffind p fs' = ffind p fs \/ ffind p fs' = None.
Proof.
  intros N N' S. destruct (ffind p fs') as [v|] eqn:E; [|auto]. left. apply ffind_In in E. apply S in E. apply In_ffind in E; auto.
Qed.

Lemma ids_of_spec l : NoDup (map fst l) ->
  (forall p v, In (p, v) l -> parse_path sep depth p = None \/ exists id, chunk_id id /\ p = cp id) ->
  NoDup (ids_of sep depth l) /\ forall id, In id (ids_of sep depth l) <-> chunk_id id /\ In (cp id) (map fst l).
Proof.
  induction l as [|[p v] l IH]; cbn [ids_of flat_map map fst]; intros N O; [split; [constructor|cbn; tauto]|].
  apply NoDup_cons_iff in N. destruct N as (N1 & N2).
  destruct IH as (A & B); auto. { intros. eapply O. right. eauto. }
  fold (ids_of sep depth l). destruct (parse_path sep depth p) as [id0|] eqn:P; cbn [app].
  - destruct (O p v) as [C|(id1 & C & ->)]; [now left|congruence|]. rewrite parse_cache in P by auto. inversion P; subst id1.
    split.
    + constructor; auto. rewrite B. tauto.
    + intros id. cbn [In]. rewrite B. split.
      * intros [<-|(? & ?)]; auto.
      * intros (Hid & [e|e]); [left; eapply cache_inj; eauto|auto].
  - split; auto. intros id. rewrite B. cbn [In]. split; [tauto|]. intros (Hid & [->|e]); [|auto]. rewrite parse_cache in P by auto. discriminate.
Qed.

Lemma in_fst_ffind {B} p (l : list (bytes * B)) : In p (map fst l) <-> ffind p l <> None.
Proof.
  split.
  - intros H C. apply ffind_None in C. contradiction.
  - intros H. destruct (ffind p l) as [v|] eqn:E; [|congruence]. apply ffind_In in E. apply (in_map fst) in E. exact E.
Qed.

Lemma perm_cache_dir l l' : Permutation l l' -> cache_dir sep depth l' -> cache_dir sep depth l.
Proof.
  intros P (N & O). split.
  - eapply Permutation_NoDup; [apply Permutation_map, Permutation_sym, P|auto].
  - intros p v H. apply (O p v). eapply Permutation_in; eauto.
Qed.

(** What Prune did. *)
Lemma prune_step fs keep order missing fs' size : cache_dir sep depth fs -> (forall l, Permutation (order l) l) ->
  prune_loop sep depth (order fs) keep fs (total fs) = (missing, fs', size) ->
  cache_dir sep depth fs' /\ size = total fs' /\
  (forall id, chunk_id id -> ffind (cp id) fs' = if in_dec dec id keep then ffind (cp id) fs else None) /\
  (forall id, In id missing <-> In id keep /\ (chunk_id id -> ffind (cp id) fs = None)).
Proof.
  intros C P E. pose proof (perm_cache_dir _ _ (P fs) C) as (No & Oo).
  apply (prune_spec sep depth Hs) in E; auto; [|apply C|].
  2:{ intros f Hf. eapply Permutation_in; [apply P|exact Hf]. }
  destruct E as (A & B & S & D & F). split; [|split; [exact S|split]].
  - split; auto. intros p v Hi. apply (proj2 C p v). auto.
  - intros id Hid. rewrite A by auto. destruct (in_dec dec id keep); auto.
    destruct (in_dec dec (cp id) (map fst (order fs))) as [i|i]; auto.
    apply ffind_None. intros Hi. apply i. eapply Permutation_in; [apply Permutation_map, Permutation_sym, P|exact Hi].
  - intros id. rewrite B. destruct (ids_of_spec (order fs) No Oo) as (_ & I). rewrite I.
    assert (X : In (cp id) (map fst (order fs)) <-> ffind (cp id) fs <> None).
    { rewrite <- in_fst_ffind. split; intros Hi; (eapply Permutation_in; [|exact Hi]); [apply Permutation_map, P|apply Permutation_map, Permutation_sym, P]. }
    rewrite X. split.
    + intros (K & H). split; auto. intros Hid. destruct (ffind (cp id) fs); auto. exfalso. apply H. split; auto. discriminate.
    + intros (K & H). split; auto. intros (Hid & N). auto.
Qed.

(** What Cleanup did. *)
Lemma cleanup_step fs order limit intr b fs' size : NoDup (map fst fs) -> (forall l, Permutation (order l) l) ->
  evict limit intr 0 (lru_sort (order fs)) fs (total fs) = (b, fs', size) ->
  NoDup (map fst fs') /\ size = total fs' /\ (forall x, In x fs' -> In x fs) /\
  exists E, Permutation fs (E ++ fs') /\ StronglySorted less_recent E /\ (forall e k, In e E -> In k fs' -> less_recent e k) /\
    (b = false -> (total fs' <= limit)%Z \/ fs' = []) /\ (forall E0 e, E = E0 ++ [e] -> (limit < total fs' + dlen (fst (snd e)))%Z).
Proof.
  intros N P E.
  assert (P' : Permutation (lru_sort (order fs)) fs). { rewrite <- lru_sort_perm. apply P. }
  assert (N' : NoDup (map fst (lru_sort (order fs)))). { eapply Permutation_NoDup; [apply Permutation_map, Permutation_sym, P'|auto]. }
  assert (S : StronglySorted less_recent (lru_sort (order fs))).
  { apply lru_sort_sorted. eapply Permutation_NoDup; [apply Permutation_map, Permutation_sym, P|auto]. }
  apply evict_spec in E; auto. 2:{ intros f Hf. eapply Permutation_in; [apply P'|exact Hf]. }
  destruct E as (E & rest & Q & A & B & C & D & F). split; auto. split; auto. split; [intros x Hx; now apply A|].
  assert (R : Permutation rest fs').
  { rewrite Q in N', P'. apply NoDup_Permutation.
    - apply (NoDup_map_inv fst). rewrite map_app in N'. clear - N'. induction (map fst E) as [|y l IH]; [exact N'|]. cbn [app] in N'. apply NoDup_cons_iff in N'. apply IH, N'.
    - now apply (NoDup_map_inv fst).
    - intros x. rewrite A. assert (In x fs <-> In x (E ++ rest)) as -> by (split; apply Permutation_in; auto; now apply Permutation_sym).
      rewrite in_app_iff. split; [|tauto]. intros Hr. split; auto. intros He. rewrite map_app in N'.
      apply (in_map fst) in He. apply (in_map fst) in Hr. clear - N' He Hr. induction (map fst E) as [|y l IH]; [contradiction|].
      cbn [app] in N'. apply NoDup_cons_iff in N'. destruct N' as (N1 & N2). destruct He as [->|He]; [apply N1, in_or_app; auto|auto]. }
  exists E. rewrite Q in S, P'. split; [rewrite <- P'; now apply Permutation_app_head|]. split.
  { clear - S. induction E as [|e E IH]; [constructor|]. cbn [app] in S. inversion S; subst. constructor; auto.
    match goal with H : Forall _ (E ++ rest) |- _ => apply Forall_app in H; tauto end. }
  split; [|split; [|exact F]].
  - intros e k He Hk. apply (Permutation_in _ (Permutation_sym R)) in Hk. clear - S He Hk.
    induction E as [|x E IH]; [contradiction|]. cbn [app] in S. inversion S as [|? ? S1 F1]; subst. destruct He as [->|He]; [|auto].
    rewrite Forall_forall in F1. apply F1. apply in_or_app. auto.
  - intros Hb. destruct (D Hb) as [->|H]; [right; now apply Permutation_nil|auto].
Qed.

Lemma step_refines m s o s' r : agree m (ds_fs s) -> op_ok o -> dstep sep depth s o = (s', r) ->
  exists m', mstep m o m' r /\ agree m' (ds_fs s').
Proof.
  intros G O E. destruct o; cbn [dstep op_ok] in *.
  - inversion E; subst. eexists. split; [constructor|]. now apply agree_put.
  - inversion E; subst. eexists. split; [constructor|]. now apply agree_put.
  - destruct size as [|n]; [inversion E; subst; eexists; split; [constructor|auto]|].
    destruct G as (C & A). pose proof (A id O) as Ai. destruct (ffind (cp id) (ds_fs s)) as [[c t]|] eqn:Ff; inversion E; subst.
    + eexists. split; [eapply (m_get m id offset (S n) now c t); [lia|exact Ai]|]. apply agree_put; auto. split; auto.
    + eexists. split; [eapply m_get_absent; [lia|exact Ai]|]. split; auto.
  - destruct G as (C & A). pose proof (A id O) as Ai. destruct (ffind (cp id) (ds_fs s)) as [[c t]|] eqn:Ff; inversion E; subst.
    + eexists. rewrite firstn_all. split; [eapply m_get_all; exact Ai|]. apply agree_put; auto. split; auto.
    + eexists. split; [eapply m_get_all_absent; exact Ai|]. split; auto.
  - inversion E; subst. eexists. split; [constructor|]. now apply agree_erase.
  - inversion E; subst. rewrite <- (proj2 G id O). eexists. split; [constructor|auto].
  - inversion E; subst. eexists. split; [constructor|]. split; [split; [constructor|intros ? ? []]|]. intros; reflexivity.
  - destruct interrupted; [inversion E; subst; eexists; split; [constructor|auto]|].
    destruct (prune_loop sep depth (order (ds_fs s)) keep (ds_fs s) (total (ds_fs s))) as [[missing fs'] size] eqn:Pr.
    destruct G as (C & A). apply prune_step in Pr; auto. destruct Pr as (C' & S & B & M).
    set (m' := fun id => if in_dec dec id keep then m id else None).
    assert (Q : agree m' fs'). { split; auto. intros id Hid. rewrite B by auto. unfold m'. destruct (in_dec dec id keep); auto. }
    exists m'. split; [|inversion E; subst; exact Q].
    destruct missing as [|id missing]; inversion E; subst.
    + apply m_prune; [intros; reflexivity|]. intros id K Hm. apply (proj2 (M id)). split; auto. intros Hid. rewrite <- A; auto.
    + destruct (proj1 (M id) ltac:(now left)) as (K & H). eapply m_prune_missing with (id := id); [intros; reflexivity|auto|].
      intros Hid. rewrite A; auto.
  - destruct (ds_limit s) as [limit|] eqn:Ls.
    2:{ inversion E; subst. exists m. split; [|auto]. constructor; auto. }
    destruct (ds_init s && (ds_size s <=? Z.of_N limit)%Z). { inversion E; subst. exists m. split; [|auto]. constructor; auto. }
    destruct interrupted. { inversion E; subst. exists m. split; [|auto]. constructor; auto. }
    destruct (evict (Z.of_N limit) interrupt 0 (lru_sort (order (ds_fs s))) (ds_fs s) (total (ds_fs s))) as [[b fs'] size] eqn:Ev.
    destruct G as (C & A). apply cleanup_step in Ev; auto; [|apply C]. destruct Ev as (N' & _ & Sub & _).
    inversion E; subst. cbn [ds_fs].
    set (m' := fun id => match m id with Some v => match ffind (cp id) fs' with Some _ => Some v | None => None end | None => None end).
    exists m'. split.
    + constructor; [|destruct b; auto]. intros id. unfold m'. destruct (m id); auto. destruct (ffind (cp id) fs'); auto.
    + split; [split; [auto|intros p v Hi; apply (proj2 C p v); auto]|]. intros id Hid. unfold m'. rewrite A by auto.
      destruct (find_sub (ds_fs s) fs' (cp id)) as [e|e]; auto; [apply C| |]; rewrite e; destruct (ffind (cp id) (ds_fs s)); reflexivity.
  - inversion E; subst. cbn [ds_fs]. exists m. split; [|auto]. destruct G as (C & A).
    pose proof (perm_cache_dir _ _ (O (ds_fs s)) C) as (No & Oo). destruct (ids_of_spec _ No Oo) as (Nd & I).
    constructor; auto. intros id Hid. fold (ids_of sep depth (order (ds_fs s))). rewrite I, A by auto. rewrite <- in_fst_ffind.
    split.
    + intros (_ & Hi). eapply Permutation_in; [apply Permutation_map, O|exact Hi].
    + intros Hi. split; auto. eapply Permutation_in; [apply Permutation_map, Permutation_sym, O|exact Hi].
  - inversion E; subst. exists m. split; [constructor|auto].
  - inversion E; subst. exists m. split; [constructor|auto].
Qed.

Lemma run_refines : forall ops m s s' rs, agree m (ds_fs s) -> Forall op_ok ops -> drun sep depth s ops = (s', rs) ->
  exists m', mrun m ops m' rs /\ agree m' (ds_fs s').
Proof.
  induction ops as [|o ops IH]; intros m s s' rs G F E; cbn [drun] in E.
  - inversion E; subst. exists m. split; [constructor|auto].
  - inversion F; subst. destruct (dstep sep depth s o) as [s1 x] eqn:St. destruct (drun sep depth s1 ops) as [s2 xs] eqn:Dr. inversion E; subst.
    apply (step_refines m) in St; auto. destruct St as (m1 & M & G1). apply (IH m1) in Dr; auto. destruct Dr as (m2 & R & G2).
    exists m2. split; [econstructor; eauto|auto].
Qed.

(** The counter. *)
Definition counted (s : dstore) : Prop := ds_init s = true -> (total (ds_fs s) <= ds_size s)%Z.

Lemma step_counted s o s' r : cache_dir sep depth (ds_fs s) -> op_ok o -> counted s ->
  match o with DPutFail _ _ _ _ => False | _ => True end -> dstep sep depth s o = (s', r) -> counted s'.
Proof.
  unfold counted. intros C O I NF E. destruct o; cbn [dstep op_ok] in *; try contradiction.
  - inversion E; subst. cbn [ds_init ds_fs ds_size]. intros H. rewrite total_put. destruct (ffind _ _) as [[d ?]|]; [unfold dlen at 1|]; specialize (I H); lia.
  - destruct size as [|n]; [inversion E; subst; auto|]. destruct (ffind (cp id) (ds_fs s)) as [[c t]|] eqn:Ff; inversion E; subst; auto.
    cbn [touch set_fs ds_init ds_fs ds_size]. intros H. rewrite total_put, Ff. specialize (I H). lia.
  - destruct (ffind (cp id) (ds_fs s)) as [[c t]|] eqn:Ff; inversion E; subst; auto.
    cbn [touch set_fs ds_init ds_fs ds_size]. intros H. rewrite total_put, Ff. specialize (I H). lia.
  - inversion E; subst. cbn [set_fs ds_init ds_fs ds_size]. intros H. pose proof (total_erase_le (cp id) (ds_fs s)). specialize (I H). lia.
  - inversion E; subst; auto.
  - inversion E; subst. cbn. lia.
  - destruct interrupted; [inversion E; subst; auto|].
    destruct (prune_loop sep depth (order (ds_fs s)) keep (ds_fs s) (total (ds_fs s))) as [[missing fs'] size] eqn:Pr.
    apply prune_step in Pr; auto. destruct Pr as (_ & -> & _). inversion E; subst. cbn [ds_fs ds_size]. lia.
  - destruct (ds_limit s) as [limit|] eqn:Ls; [|inversion E; subst; auto].
    destruct (ds_init s && (ds_size s <=? Z.of_N limit)%Z); [inversion E; subst; auto|]. destruct interrupted; [inversion E; subst; auto|].
    destruct (evict (Z.of_N limit) interrupt 0 (lru_sort (order (ds_fs s))) (ds_fs s) (total (ds_fs s))) as [[b fs'] size] eqn:Ev.
    apply cleanup_step in Ev; auto; [|apply C]. destruct Ev as (_ & -> & _). inversion E; subst. cbn [ds_fs ds_size]. lia.
  - inversion E; subst. cbn [ds_fs ds_size]. lia.
  - inversion E; subst; auto.
  - inversion E; subst. auto.
Qed.

Lemma run_counted : forall ops s s' rs, cache_dir sep depth (ds_fs s) -> Forall op_ok ops -> counted s -> no_failed_put ops ->
  drun sep depth s ops = (s', rs) -> counted s' /\ cache_dir sep depth (ds_fs s').
Proof.
  induction ops as [|o ops IH]; intros s s' rs C F I NF E; cbn [drun] in E.
  - inversion E; subst. auto.
  - inversion F; subst. inversion NF; subst. destruct (dstep sep depth s o) as [s1 x] eqn:St.
    destruct (drun sep depth s1 ops) as [s2 xs] eqn:Dr. inversion E; subst.
    assert (G : agree (stored sep depth (ds_fs s)) (ds_fs s)) by (split; auto).
    destruct (step_refines _ s o s1 x G ltac:(auto) St) as (m1 & _ & (C1 & _)).
    apply (IH s1 s' xs); auto. apply (step_counted s o s1 x); auto.
Qed.
End Ref.
