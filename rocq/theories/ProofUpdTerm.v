(** Update takes finitely many steps. *)
From Verif Require Import Base ListX Str ModelText ModelPath SpecPath ModelCdc ModelChunkMap ModelProvider ModelAsset SpecAsset ModelFileDiff SpecFileDiff
  ModelManifest SpecManifest ProofManifest ProofTree PropManifest ProofAtDir ModelUpdater SpecUpdater ProofUpdater ProofUpdEffect ProofUpdScan ProofUpdApply ProofUpdMachine ProofUpdRun.
From Coq Require Import Permutation.
Local Open Scope N_scope.

Definition sum (l : list nat) : nat := fold_right Nat.add 0%nat l.
Lemma sum_app a b : sum (a ++ b) = (sum a + sum b)%nat.
Proof. induction a as [|x a IH]; cbn; [reflexivity|]. unfold sum in *. rewrite IH. lia. Qed.
Lemma sum_perm a b : Permutation a b -> sum a = sum b.
Proof. induction 1; cbn in *; unfold sum in *; lia. Qed.
Lemma sum_bound l k : (forall x, In x l -> (x <= k)%nat) -> (sum l <= length l * k)%nat.
Proof. induction l as [|x l IH]; intros H; cbn; [lia|]. specialize (IH (fun y I => H y (or_intror I))). specialize (H x (or_introl eq_refl)). unfold sum in *. lia. Qed.

Section Term.
Context (store : cid -> option (list asset)) (clists : cid -> option (list cref)) (sort : list ainfo -> list ainfo) (Hsort : sorts ai_path sort).
Context (search : bytes -> option (list sentry) -> Prop) (chunk : bytes -> option chunked -> Prop) (flushes : builder -> builder -> list cid -> Prop).
Context (push : bool) (max_queued : nat) (mpt : Z) (w h : nat).
Context (Hbound : forall p es, Forall good_name p -> search (pstr p) (Some es) -> (length es <= w)%nat /\
  forall e, In e es -> good_name (se_name e) /\ (se_dir e = true -> (length p < h)%nat)).

Fixpoint wt (k : nat) : nat := match k with O => 2 + w | S k' => 2 + w * wt k' end.
Definition wk (k : N * bytes) : nat := if fst k =? 2 then wt (h - length (split_unix (snd k))) else 1%nat.
Definition total (l : list (N * bytes)) : nat := sum (map wk l).
Definition key_ok (k : N * bytes) : Prop := exists p, Forall good_name p /\ snd k = pstr p /\ (fst k = 2 -> (length p <= h)%nat).
Definition rw (r : running) : nat :=
  match r with
  | RDir a (Some (Some (ops, _))) => S (total (map akey (news ops)))
  | RDir a (Some None) => 1
  | _ => wk (rkey r)
  end.
Definition op_good (parent : option (bytes * bytes)) (o : operation) : Prop :=
  match fst o with
  | KAdd | KUpdate =>
      match parent with
      | Some p => exists D n, Forall good_name D /\ good_name n /\ join (fst p) (snd p) = pstr D /\ ai_path (snd o) = pstr (D ++ [n])
      | None => exists P, Forall good_name P /\ ai_path (snd o) = pstr P
      end
  | _ => True
  end.
Definition res_ok (r : running) : Prop :=
  match r with
  | RDir a (Some (Some (ops, _))) => Forall (op_good (Some (pa_rel a, pa_name a))) ops /\ forall ai, In ai (news ops) -> key_ok (akey ai)
  | _ => True
  end.
Definition tinv (m : mstate) : Prop := Forall key_ok (keys m) /\ Forall res_ok (m_run m).
Definition weight (m : mstate) : nat := total (map pkey (u_q (m_u m))) + sum (map rw (m_run m)).
Definition mu (m : mstate) : nat := 2 * weight m + if m_wait m then 0 else 1.

Lemma wt_pos k : (2 <= wt k)%nat.
Proof. destruct k; cbn; lia. Qed.
Lemma wk_pos k : (1 <= wk k)%nat.
Proof. unfold wk. destruct (fst k =? 2); [pose proof (wt_pos (h - length (split_unix (snd k)))%nat); lia|lia]. Qed.
Lemma total_app a b : total (a ++ b) = (total a + total b)%nat.
Proof. unfold total. rewrite map_app. apply sum_app. Qed.
Lemma total_perm a b : Permutation a b -> total a = total b.
Proof. intros P. apply sum_perm. now apply Permutation_map. Qed.

(** The operations found by a comparison. *)
Lemma news_compare : forall src man, (length (news (compare_assets src man)) <= length src)%nat /\ forall ai, In ai (news (compare_assets src man)) -> In ai src.
Proof.
  induction src as [|s src IH]; intros man.
  - assert (X : news (compare_assets [] man) = []) by (cbn [compare_assets]; induction man as [|m man IHm]; [reflexivity|exact IHm]). rewrite X. split; [auto|easy].
  - induction man as [|m man IHm]; rewrite compare_cons_src.
    + destruct (IH []) as (A & B). cbn. unfold news in *. split; [lia|]. intros ai [->|I]; auto.
    + destruct (scmp (ai_path s) (ai_path m)).
      * destruct (IH man) as (A & B). destruct (unchanged s m); unfold news in *; cbn; (split; [lia|]); intros ai; [|intros [->|I]]; auto.
      * destruct (IH (m :: man)) as (A & B). unfold news in *. cbn [flat_map fst snd app length]. split; [lia|]. intros ai [->|I]; [now left|right; auto].
      * unfold news in *. cbn [flat_map fst snd app length]. exact IHm.
Qed.

(** ApplyOperations enqueues at most the new and changed assets. *)
Lemma enqueue_key ai rel name deadline s : join rel name = ai_path ai -> Permutation (map pkey (u_q (enqueue s (mkpasset (type_num (ai_type ai)) rel name false deadline)))) (akey ai :: map pkey (u_q s)).
Proof. intros J. cbn [enqueue u_q]. rewrite queue_add_perm. cbn [map]. unfold pkey at 1, akey. cbn. now rewrite J. Qed.

Lemma last_join P : Forall good_name P -> join (match split_unix (pstr P) with [] => [] | _ => dirname (to_unix (pstr P)) end) (last (split_unix (pstr P)) []) = pstr P.
Proof.
  intros G. rewrite pstr_split by exact G. rewrite to_unix_pstr by exact G. destruct P as [|x P] using rev_ind; [reflexivity|].
  apply Forall_app in G. destruct G as (GP & Gx). inversion Gx; subst. rewrite last_last, dir_pstr by auto.
  destruct P as [|y P]; [exact (join_pstr [] x GP (proj1 H1))|exact (join_pstr (y :: P) x GP (proj1 H1))].
Qed.

Lemma deletes_queue now : forall ops last s e s', apply_deletes store now ops last s = (e, s') -> u_q s' = u_q s /\ u_ids s' = u_ids s.
Proof.
  induction ops as [|[k ai] ops IH]; intros last s e s' E; cbn [apply_deletes] in E; [inversion E; auto|]. destruct k; try (eapply IH; exact E).
  destruct (match last with Some d => inside d (ai_path ai) | None => false end); [apply IH in E; exact E|].
  destruct (delete_asset store now (ai_path ai) (u_b (with_fc s (ORemove (ai_path ai))))) as [[e1|] b]; [inversion E; auto|]. apply IH in E. exact E.
Qed.

Lemma updates_queue now parent deadline rec : forall ops s e s', Forall (op_good parent) ops -> apply_updates store now ops parent deadline rec s = (e, s') ->
  exists l, Permutation (map pkey (u_q s')) (map pkey (u_q s) ++ map akey l) /\ (forall ai, In ai l -> In ai (news ops)) /\ (total (map akey l) <= total (map akey (news ops)))%nat.
Proof.
  induction ops as [|[k ai] ops IH]; intros s e s' F E.
  { cbn in E. inversion E; subst. exists []. cbn. rewrite app_nil_r. auto. }
  inversion F as [|x y Go F']; subst.
  assert (Skip : forall s1, u_q s1 = u_q s -> apply_updates store now ops parent deadline rec s1 = (e, s') ->
    exists l, Permutation (map pkey (u_q s')) (map pkey (u_q s) ++ map akey l) /\ (forall ai0, In ai0 l -> In ai0 (news ((k, ai) :: ops))) /\ (total (map akey l) <= total (map akey (news ((k, ai) :: ops))))%nat).
  { intros s1 Q E1. destruct (IH s1 e s' F' E1) as (l & P & I & T). exists l. rewrite Q in P. split; [exact P|]. unfold news in *. cbn [flat_map]. split; [intros; apply in_or_app; right; auto|].
    rewrite map_app, total_app. lia. }
  assert (New : forall s1 q, k = KAdd \/ k = KUpdate -> u_q s1 = q -> Permutation (map pkey q) (akey ai :: map pkey (u_q s)) -> apply_updates store now ops parent deadline rec s1 = (e, s') ->
    exists l, Permutation (map pkey (u_q s')) (map pkey (u_q s) ++ map akey l) /\ (forall ai0, In ai0 l -> In ai0 (news ((k, ai) :: ops))) /\ (total (map akey l) <= total (map akey (news ((k, ai) :: ops))))%nat).
  { intros s1 q K Q Pq E1. destruct (IH s1 e s' F' E1) as (l & P & I & T). exists (ai :: l). rewrite Q, Pq in P. cbn [map]. split; [rewrite P; cbn; apply Permutation_middle|].
    assert (N : news ((k, ai) :: ops) = ai :: news ops) by (destruct K; subst; reflexivity). rewrite N. split; [intros a [->|Ia]; [now left|right; auto]|]. unfold total in *. cbn [map sum fold_right] in *. unfold sum in *. lia. }
  assert (Stop : forall s1, u_q s1 = u_q s -> s' = s1 ->
    exists l, Permutation (map pkey (u_q s')) (map pkey (u_q s) ++ map akey l) /\ (forall ai0, In ai0 l -> In ai0 (news ((k, ai) :: ops))) /\ (total (map akey l) <= total (map akey (news ((k, ai) :: ops))))%nat).
  { intros s1 Q ->. exists []. cbn. rewrite app_nil_r, Q. split; [reflexivity|]. split; [easy|lia]. }
  destruct k; cbn [apply_updates] in E.
  - cbn [op_good fst] in Go. destruct parent as [p|].
    + destruct Go as (D & n & GD & Gn & J & Po). cbn [snd] in Po. rewrite Po, base_pstr in E by auto.
      destruct (append_asset store now p n (ai_type ai) (set_fields rec ai) (u_b s)) as [[e1|] b]; [inversion E as [[X Y]]; rewrite Y; apply (Stop s'); [rewrite <- Y; reflexivity|reflexivity]|].
      destruct (in_progress_after store now rec ai b); [|eapply Skip; [|exact E]; reflexivity]. unfold rel_file in E. rewrite J in E.
      eapply New; [now left|reflexivity| |exact E]. refine (enqueue_key ai _ _ deadline (with_b s b) _). rewrite Po. apply join_pstr; [exact GD|apply Gn].
    + destruct Go as (P & GP & Po). cbn [snd] in Po.
      destruct (get_or_create store now (ai_path ai) (ai_type ai) true (set_fields rec ai) (u_b s)) as [[e1|c] b]; [inversion E as [[X Y]]; rewrite Y; apply (Stop s'); [rewrite <- Y; reflexivity|reflexivity]|].
      destruct (in_progress_after store now rec ai b); [|eapply Skip; [|exact E]; reflexivity].
      eapply New; [now left|reflexivity| |exact E]. refine (enqueue_key ai _ _ deadline (with_b s b) _). rewrite Po. now apply last_join.
  - assert (GP : exists P, Forall good_name P /\ ai_path ai = pstr P).
    { cbn [op_good fst] in Go. destruct parent as [p|]; [|exact Go]. destruct Go as (D & n & GD & Gn & _ & Po). exists (D ++ [n]). split; [apply Forall_app; auto|exact Po]. }
    destruct GP as (P & GP & Po).
    destruct (get_or_create store now (ai_path ai) (ai_type ai) true (set_fields rec ai) (u_b s)) as [[e1|c] b]; [inversion E as [[X Y]]; rewrite Y; apply (Stop s'); [rewrite <- Y; reflexivity|reflexivity]|].
    destruct (in_progress_after store now rec ai b); [|eapply Skip; [|exact E]; reflexivity].
    eapply New; [now right|reflexivity| |exact E]. refine (enqueue_key ai _ _ deadline (with_b s b) _). rewrite Po. now apply last_join.
  - eapply Skip; [|exact E]; reflexivity.
  - eapply Skip; [|exact E]; reflexivity.
Qed.

Lemma ops_queue now parent deadline rec ops s e s' : Forall (op_good parent) ops -> apply_operations store now ops parent deadline rec s = (e, s') ->
  exists l, Permutation (map pkey (u_q s')) (map pkey (u_q s) ++ map akey l) /\ (forall ai, In ai l -> In ai (news ops)) /\ (total (map akey l) <= total (map akey (news ops)))%nat.
Proof.
  intros F E. unfold apply_operations in E. destruct (apply_deletes store now ops None s) as [[e1|] s1] eqn:D; apply deletes_queue in D; destruct D as (Q & _).
  - inversion E; subst. exists []. cbn. rewrite app_nil_r, Q. split; [reflexivity|]. split; [easy|lia].
  - rewrite <- Q. eapply updates_queue; eassumption.
Qed.

(** What a scan finds weighs less than the directory. *)
Lemma scan_weight now a es s ops ids s' D : Forall good_name D -> (length D <= h)%nat -> join (pa_rel a) (pa_name a) = pstr D -> search (pstr D) (Some es) ->
  scan_dir store clists sort now a (Some es) s = (Some (ops, ids), s') ->
  u_q s' = u_q s /\ (forall ai, In ai (news ops) -> key_ok (akey ai) /\ exists n, good_name n /\ ai_path ai = pstr (D ++ [n])) /\ (S (total (map akey (news ops))) < wk (2%N, pstr D))%nat.
Proof.
  intros GD Hd J Se E. unfold scan_dir in E. rewrite J in E.
  match type of E with (let (_, _) := ?e in _) = _ => destruct e as [[[[man ids0]|e0] root] L] eqn:Ea end; [|discriminate]. inversion E; subst ops ids0 s'. clear E.
  destruct (Hbound D es GD Se) as (Lw & He). split; [reflexivity|].
  destruct (news_compare (sort (map (src_info (pstr D)) es)) man) as (Ln & In_).
  assert (Pm : Permutation (map (src_info (pstr D)) es) (sort (map (src_info (pstr D)) es))) by apply Hsort.
  rewrite <- (Permutation_length Pm), map_length in Ln.
  assert (N : forall ai, In ai (news (compare_assets (sort (map (src_info (pstr D)) es)) man)) -> exists e, In e es /\ ai = src_info (pstr D) e /\ ai_path ai = pstr (D ++ [se_name e])).
  { intros ai I. apply In_ in I. eapply Permutation_in in I; [|symmetry; exact Pm]. apply in_map_iff in I. destruct I as (e & <- & Ie). exists e. split; [exact Ie|]. split; [reflexivity|].
    cbn [src_info ai_path]. rewrite to_unix_pstr by exact GD. apply join_pstr; [exact GD|]. apply (He e Ie). }
  assert (Kw : forall ai, In ai (news (compare_assets (sort (map (src_info (pstr D)) es)) man)) ->
    key_ok (akey ai) /\ (exists n, good_name n /\ ai_path ai = pstr (D ++ [n])) /\ (wk (akey ai) <= match (h - length D)%nat with O => 1 | S k => wt k end)%nat).
  { intros ai I. destruct (N ai I) as (e & Ie & Ea0 & Pa). destruct (He e Ie) as (Ge & Hde).
    assert (GP : Forall good_name (D ++ [se_name e])) by (apply Forall_app; auto).
    assert (Lp : length (D ++ [se_name e]) = S (length D)) by (rewrite app_length; cbn; lia).
    assert (Ty : ai_type ai = if se_dir e then TDir else TFile) by (now rewrite Ea0). unfold wk, key_ok, akey. cbn [fst snd]. rewrite Ty, Pa. split; [|split].
    - exists (D ++ [se_name e]). split; [exact GP|]. split; [reflexivity|]. rewrite Lp. destruct (se_dir e); [intros _; now apply Hde|discriminate].
    - exists (se_name e). auto.
    - rewrite pstr_split by exact GP. rewrite Lp. destruct (se_dir e); cbn [type_num N.eqb Pos.eqb].
      + specialize (Hde eq_refl). destruct (h - length D)%nat as [|k] eqn:Ek; [lia|]. replace (h - S (length D))%nat with k by lia. lia.
      + destruct (h - length D)%nat as [|k]; [lia|]. pose proof (wt_pos k). lia. }
  split; [intros ai I; destruct (Kw ai I) as (A & B & _); auto|].
  assert (Sb : (total (map akey (news (compare_assets (sort (map (src_info (pstr D)) es)) man))) <= w * match (h - length D)%nat with O => 1 | S k => wt k end)%nat).
  { unfold total. rewrite map_map. eapply Nat.le_trans; [apply sum_bound|].
    - intros x I. apply in_map_iff in I. destruct I as (ai & <- & I). apply (Kw ai I).
    - rewrite map_length. apply Nat.mul_le_mono_r. lia. }
  unfold wk. cbn [fst snd N.eqb Pos.eqb]. rewrite pstr_split by exact GD. destruct (h - length D)%nat as [|k]; cbn [wt]; lia.
Qed.

(** Queueing tasks does not add weight. *)
Lemma tinv_queue drain m m' : queue_tasks store max_queued drain m m' -> tinv m -> tinv m' /\ (weight m' <= weight m)%nat /\ m_wait m' = m_wait m.
Proof.
  assert (P1 : forall m a q, queue_dequeue (accept_of drain) (u_q (m_u m)) = Some (a, q) -> Permutation (map pkey (u_q (m_u m))) (pkey a :: map pkey q)).
  { intros m0 a q De. apply dequeue_perm in De. now rewrite (Permutation_map pkey De). }
  induction 1 as [m St|m a q m' De Ta Q IH|m now a q c b m' De Ta Ec Q IH|m now a q e b m' De Ta Ec Q IH|m a q m' De T1 T2 Q IH]; intros (A & B); [split; [split; assumption|auto]| | | |].
  - destruct IH as (T & W & Wa).
    + split; cbn [m_run m_u]; [|apply Forall_app; split; [exact B|repeat constructor]]. unfold keys in *. cbn [m_u m_run with_q u_q]. rewrite (P1 _ _ _ De) in A. rewrite map_app. cbn in A |- *. inversion A; subst.
      rewrite app_assoc. apply Forall_app. split; [assumption|]. constructor; [|constructor]. unfold pkey in *. now rewrite Ta in *.
    + split; [exact T|]. split; [|exact Wa]. eapply Nat.le_trans; [exact W|]. unfold weight. cbn [m_u m_run with_q u_q]. rewrite (total_perm _ _ (P1 _ _ _ De)), map_app, sum_app.
      cbn [map sum fold_right rw rkey]. unfold total. cbn [map sum fold_right]. unfold pkey at 2. rewrite Ta. unfold sum. lia.
  - destruct IH as (T & W & Wa).
    + split; cbn [m_run m_u]; [|apply Forall_app; split; [exact B|repeat constructor]]. unfold keys in *. cbn [m_u m_run with_q with_b u_q]. rewrite (P1 _ _ _ De) in A. rewrite map_app. cbn in A |- *. inversion A; subst.
      rewrite app_assoc. apply Forall_app. split; [assumption|]. constructor; [|constructor]. unfold pkey in *. now rewrite Ta in *.
    + split; [exact T|]. split; [|exact Wa]. eapply Nat.le_trans; [exact W|]. unfold weight. cbn [m_u m_run with_q with_b u_q]. rewrite (total_perm _ _ (P1 _ _ _ De)), map_app, sum_app.
      cbn [map sum fold_right rw rkey]. unfold total. cbn [map sum fold_right]. unfold pkey at 2. rewrite Ta. unfold sum. lia.
  - destruct IH as (T & W & Wa).
    + split; cbn [m_run m_u]; [|exact B]. unfold keys in *. cbn [m_u m_run with_q with_b u_q]. rewrite (P1 _ _ _ De) in A. cbn in A. now inversion A.
    + split; [exact T|]. split; [|exact Wa]. eapply Nat.le_trans; [exact W|]. unfold weight. cbn [m_u m_run with_q with_b u_q]. rewrite (total_perm _ _ (P1 _ _ _ De)). unfold total. cbn [map sum fold_right]. unfold sum. lia.
  - destruct IH as (T & W & Wa).
    + split; cbn [m_run m_u]; [|exact B]. unfold keys in *. cbn [m_u m_run with_q u_q]. rewrite (P1 _ _ _ De) in A. cbn in A. now inversion A.
    + split; [exact T|]. split; [|exact Wa]. eapply Nat.le_trans; [exact W|]. unfold weight. cbn [m_u m_run with_q u_q]. rewrite (total_perm _ _ (P1 _ _ _ De)). unfold total. cbn [map sum fold_right]. unfold sum. lia.
Qed.

Lemma gc_queue now p ty force f u e b : get_or_create store now p ty force f (u_b u) = (e, b) -> u_q (with_b u b) = u_q u.
Proof. reflexivity. Qed.
Lemma handle_file_queue now a c u ok u' : handle_file store now a c u = (ok, u') -> u_q u' = u_q u.
Proof.
  unfold handle_file. match goal with |- context [get_or_create ?x1 ?x2 ?x3 ?x4 ?x5 ?x6 ?x7] => destruct (get_or_create x1 x2 x3 x4 x5 x6 x7) as [[e|r] b] end; [|destruct c]; intros E; inversion E; reflexivity.
Qed.

Lemma tinv_step m m' : mstep store clists sort search chunk flushes push max_queued mpt m m' -> tinv m -> tinv m' /\ (mu m' < mu m)%nat.
Proof.
  intros St (A & B). destruct St as [m m1 m2 m3 w1 w2 reqs Wt Hw Wok Mf E2 Qt|m now r1 a r2 es res u Er Se Sd|m now r1 a r2 ck ok u Wt Er Ch Hf|m now r1 a res r2 late ok u Wt Er Hd].
  - assert (I1 : tinv m1 /\ weight m1 = weight m).
    { unfold maybe_flush in Mf. destruct (w1 && _); [|subst; repeat split; auto]. destruct Mf as (o & b' & ids & _ & ->). repeat split; auto. }
    destruct I1 as ((A1 & B1) & W1).
    assert (I2 : tinv m2 /\ weight m2 = weight m1).
    { assert (Pq : Permutation (map pkey (u_q (m_u m2))) (map pkey (u_q (m_u m1)))) by (subst m2; cbn [with_u m_u with_q u_q]; destruct reqs; [reflexivity|apply prioritize_perm]).
      assert (R2 : m_run m2 = m_run m1) by (now subst m2). split; [split|].
      - unfold keys in *. now rewrite Pq, R2.
      - now rewrite R2.
      - unfold weight. now rewrite (total_perm _ _ Pq), R2. }
    destruct I2 as (T2 & W2). destruct (tinv_queue w2 m2 m3 Qt T2) as ((A3 & B3) & W3 & Wa). split; [split; assumption|].
    unfold mu. cbn [m_wait]. rewrite Wt. change (weight (mkm (m_u m3) (m_run m3) true (m_status m3) (m_failed m3))) with (weight m3). lia.
  - rewrite Forall_forall in A. assert (Ka : key_ok (2, join (pa_rel a) (pa_name a))).
    { apply A. unfold keys. apply in_or_app. right. rewrite Er, map_app. apply in_or_app. right. now left. }
    destruct Ka as (D & GD & J & Hl). cbn [fst snd] in J, Hl. specialize (Hl eq_refl). rewrite J in Se.
    assert (Ku : forall x, u_q u = u_q (m_u m) -> keys (mkm u (r1 ++ RDir a x :: r2) (m_wait m) (m_status m) (m_failed m)) = keys m) by (intros x Q; unfold keys; cbn [m_u m_run]; rewrite Q, Er, !map_app; reflexivity).
    assert (Wu : forall x, u_q u = u_q (m_u m) -> (rw (RDir a x) < wk (2%N, pstr D))%nat -> (mu (mkm u (r1 ++ RDir a x :: r2) (m_wait m) (m_status m) (m_failed m)) < mu m)%nat).
    { intros x Q Lt. unfold mu, weight. cbn [m_wait m_u m_run]. rewrite Q, Er, !map_app, !sum_app. cbn [map]. assert (Old : rw (RDir a None) = wk (2, pstr D)) by (cbn [rw rkey]; now rewrite J). rewrite Old.
      change (sum (?x :: ?y)) with (x + sum y)%nat. destruct (m_wait m); lia. }
    assert (Bu : forall x, res_ok (RDir a x) -> Forall res_ok (r1 ++ RDir a x :: r2)).
    { intros x R. rewrite Er in B. apply Forall_app in B. destruct B as (B1 & B2). inversion B2; subst. apply Forall_app. auto. }
    destruct es as [es|].
    + destruct res as [[ops ids]|].
      * destruct (scan_weight now a es (m_u m) ops ids u D GD Hl J Se Sd) as (Q & Kn & Lt). split; [split|].
        -- rewrite Ku by exact Q. now apply Forall_forall.
        -- cbn [m_run]. apply Bu. cbn [res_ok]. split; [|intros ai I; now apply Kn]. apply Forall_forall. intros [k ai] Io. unfold op_good. cbn [fst snd].
           assert (X : In ai (news ops) -> exists D n, Forall good_name D /\ good_name n /\ join (pa_rel a) (pa_name a) = pstr D /\ ai_path ai = pstr (D ++ [n])).
           { intros I. destruct (Kn ai I) as (_ & n & Gn & Pn). exists D, n. auto. }
           destruct k; auto; apply X; unfold news; apply in_flat_map; eexists; (split; [exact Io|now left]).
        -- apply Wu; [exact Q|]. cbn [rw]. exact Lt.
      * assert (u = m_u m).
        { unfold scan_dir in Sd. match type of Sd with (let (_, _) := ?z in _) = _ => destruct z as [[[[man i0]|e0] root] L] end; [discriminate|]. now inversion Sd. }
        subst u. split; [split|].
        -- rewrite Ku by reflexivity. now apply Forall_forall.
        -- cbn [m_run]. apply Bu. exact I.
        -- apply Wu; [reflexivity|]. cbn [rw]. unfold wk. cbn [fst N.eqb Pos.eqb]. match goal with |- context [wt ?k] => pose proof (wt_pos k) end. lia.
    + cbn [scan_dir] in Sd. inversion Sd; subst res u. split; [split|].
      * rewrite Ku by reflexivity. now apply Forall_forall.
      * cbn [m_run]. apply Bu. exact I.
      * apply Wu; [reflexivity|]. cbn [rw]. unfold wk. cbn [fst N.eqb Pos.eqb]. match goal with |- context [wt ?k] => pose proof (wt_pos k) end. lia.
  - apply handle_file_queue in Hf. split; [split|].
    + unfold keys in *. cbn [m_u m_run]. rewrite Hf. rewrite Er in A. apply Forall_app in A. destruct A as (A1 & A2). rewrite map_app in *. cbn in A2. apply Forall_app in A2. destruct A2 as (A2 & A3). inversion A3; subst. apply Forall_app. split; [assumption|]. apply Forall_app; auto.
    + cbn [m_run]. rewrite Er in B. apply Forall_app in B. destruct B as (B1 & B2). inversion B2; subst. apply Forall_app; auto.
    + unfold mu, weight. cbn [m_wait m_u m_run]. rewrite Hf, Er, Wt, !map_app, !sum_app. cbn [map sum fold_right rw]. pose proof (wk_pos (rkey (RFile a))). unfold sum. lia.
  - assert (Rest : Forall key_ok (map pkey (u_q (m_u m)) ++ map rkey (r1 ++ r2)) /\ Forall res_ok (r1 ++ r2) /\ res_ok (RDir a (Some res))).
    { rewrite Er in B. unfold keys in A. rewrite Er in A. apply Forall_app in A. destruct A as (A1 & A2). rewrite map_app in *. cbn in A2. apply Forall_app in A2. destruct A2 as (A2 & A3). inversion A3; subst.
      apply Forall_app in B. destruct B as (B1 & B2). inversion B2; subst. split; [apply Forall_app; split; [assumption|]; apply Forall_app; auto|]. split; [apply Forall_app; auto|assumption]. }
    destruct Rest as (A' & B' & Ro).
    assert (W' : (weight m = total (map pkey (u_q (m_u m))) + sum (map rw (r1 ++ r2)) + rw (RDir a (Some res)))%nat).
    { unfold weight. rewrite Er, !map_app, !sum_app. cbn [map sum fold_right]. unfold sum. lia. }
    assert (Fin : forall u', (exists l, Permutation (map pkey (u_q u')) (map pkey (u_q (m_u m)) ++ map akey l) /\ (forall ai, In ai l -> key_ok (akey ai)) /\ (S (total (map akey l)) <= rw (RDir a (Some res)))%nat) ->
      tinv (mkm u' (r1 ++ r2) false ok (m_failed m || negb ok)) /\ (mu (mkm u' (r1 ++ r2) false ok (m_failed m || negb ok)) < mu m)%nat).
    { intros u' (l & P & K & T). split; [split|].
      - unfold keys. cbn [m_u m_run]. rewrite P. apply Forall_app in A'. destruct A' as (A1 & A2). repeat (apply Forall_app; split); auto. apply Forall_forall. intros k I. apply in_map_iff in I. destruct I as (ai & <- & I). auto.
      - exact B'.
      - unfold mu. rewrite W', Wt. unfold weight. cbn [m_wait m_u m_run]. rewrite (total_perm _ _ P), total_app. lia. }
    assert (Ka : key_ok (2, join (pa_rel a) (pa_name a))).
    { rewrite Forall_forall in A. apply A. unfold keys. apply in_or_app. right. rewrite Er, map_app. apply in_or_app. right. now left. }
    destruct Ka as (D & GD & J & Hl). cbn [fst snd] in J, Hl.
    unfold handle_dir in Hd.
    assert (Ap : forall ops, Forall (op_good (Some (pa_rel a, pa_name a))) ops -> (forall ai, In ai (news ops) -> key_ok (akey ai)) -> (S (total (map akey (news ops))) <= rw (RDir a (Some res)))%nat ->
      forall e s1 dl, apply_operations store now ops (Some (pa_rel a, pa_name a)) dl true (m_u m) = (e, s1) -> 
      exists l, Permutation (map pkey (u_q s1)) (map pkey (u_q (m_u m)) ++ map akey l) /\ (forall ai, In ai l -> key_ok (akey ai)) /\ (S (total (map akey l)) <= rw (RDir a (Some res)))%nat).
    { intros ops F K T e s1 dl Ea. destruct (ops_queue now _ dl true ops (m_u m) e s1 F Ea) as (l & P & I & Tl). exists l. split; [exact P|]. split; [auto|lia]. }
    assert (Eo : match res with Some r => r | None => ([], []) end = (match res with Some r => fst r | None => [] end, match res with Some r => snd r | None => [] end)) by (destruct res as [[? ?]|]; reflexivity).
    rewrite Eo in Hd. cbn iota beta in Hd.
    assert (Ap' := Ap (match res with Some r => fst r | None => [] end)). clear Ap.
    destruct (apply_operations store now _ _ _ true (m_u m)) as [[e1|] s1] eqn:Ea in Hd.
    + inversion Hd; subst ok u. apply Fin. eapply Ap'; [| | |exact Ea]; destruct res as [[ops ids]|]; cbn [fst]; try apply Ro; try (constructor; fail); try easy; cbn; lia.
    + match type of Hd with (let (_, _) := ?z in _) = _ => destruct z as [[rr root] L] end. inversion Hd; subst ok u. apply Fin. cbn [u_q].
      eapply Ap'; [| | |exact Ea]; destruct res as [[ops ids]|]; cbn [fst]; try apply Ro; try (constructor; fail); try easy; cbn; lia.
Qed.
End Term.
