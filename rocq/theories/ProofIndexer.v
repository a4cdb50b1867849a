(** Proofs for C71. *)
From Verif Require Import Base ListX Str ModelFastcdc SpecFastcdc ProofFastcdc PropFastcdc ModelIndexer SpecIndexer.
Local Open Scope N_scope.
Local Notation str := (list N).

Lemma sum_app {A} (f : A -> N) a b : sum f (a ++ b) = sum f a + sum f b.
Proof. induction a as [|x a IH]; cbn [sum app]; [reflexivity|]. rewrite IH. lia. Qed.
Lemma sum_ext {A} (f g : A -> N) l : (forall x, In x l -> f x = g x) -> sum f l = sum g l.
Proof.
  induction l as [|x l IH]; intros H; cbn [sum]; [reflexivity|].
  rewrite (H x) by (left; reflexivity). rewrite IH; auto. intros y I. apply H. right. exact I.
Qed.
Lemma sum_concat {A} (f : A -> N) l : sum f (concat l) = sum (fun x => sum f x) l.
Proof. induction l as [|x l IH]; cbn [sum concat]; [reflexivity|]. rewrite sum_app, IH. reflexivity. Qed.
Lemma sum_map {A B} (f : B -> N) (g : A -> B) l : sum f (map g l) = sum (fun x => f (g x)) l.
Proof. induction l as [|x l IH]; cbn [sum map]; [reflexivity|]. rewrite IH. reflexivity. Qed.
Lemma sum_one {A} (l : list A) : sum (fun _ => 1) l = N.of_nat (length l).
Proof. induction l as [|x l IH]; cbn [sum length]; [reflexivity|]. rewrite IH. lia. Qed.
Lemma sum_pos {A} (f : A -> N) l : 0 < sum f l <-> exists x, In x l /\ 0 < f x.
Proof.
  induction l as [|x l IH]; cbn [sum].
  - split; [lia|]. intros (x & [] & _).
  - split.
    + intros H. destruct (N.eq_dec (f x) 0) as [E|E].
      * destruct (proj1 IH) as (y & I & P); [lia|]. exists y. split; [right; exact I|exact P].
      * exists x. split; [left; reflexivity|lia].
    + intros (y & [->|I] & P); [lia|]. assert (0 < sum f l) by (apply IH; eauto). lia.
Qed.
Lemma sum_le {A} (f g : A -> N) l : (forall x, In x l -> f x <= g x) -> sum f l <= sum g l.
Proof.
  induction l as [|x l IH]; intros H; cbn [sum]; [lia|].
  assert (f x <= g x) by (apply H; left; reflexivity).
  assert (sum f l <= sum g l) by (apply IH; intros y I; apply H; right; exact I). lia.
Qed.
Lemma sum_perm {A} (f : A -> N) a b : Permutation a b -> sum f a = sum f b.
Proof. induction 1; cbn [sum]; lia. Qed.

Definition eqs (a b : str) : N := if bytes_dec a b then 1 else 0.
Lemma eqs_in x l : 0 < sum (eqs x) l <-> In x l.
Proof.
  rewrite sum_pos. split.
  - intros (y & I & H). unfold eqs in H. destruct (bytes_dec x y) as [->|]; [exact I|lia].
  - intros I. exists x. split; [exact I|]. unfold eqs. destruct (bytes_dec x x); [lia|congruence].
Qed.

(** ** Configuration *)
Lemma configured_ok en hw c : configured en hw c ->
  wf_config (cdc_cfg (cfg en)) /\ 1 <= read_block (cfg en) /\
  1 <= step_size (cfg en) <= 2 ^ 63.
Proof.
  intros (E & Ha & Hs). rewrite E. unfold sanitize. cbv zeta.
  set (av := if avg_chunk c =? 0 then 262144 else avg_chunk c).
  assert (Av : 1 <= av < 2 ^ 63).
  { unfold av. destruct (N.eqb_spec (avg_chunk c) 0); [split; [lia|reflexivity]|lia]. }
  set (mn := if (min_chunk c =? 0) || (av <? min_chunk c) then av / 2 else min_chunk c).
  assert (Mn : mn <= av).
  { unfold mn. destruct ((min_chunk c =? 0) || (av <? min_chunk c)) eqn:B.
    - apply N.div_le_upper_bound; lia.
    - lia. }
  set (mx := if (max_chunk c =? 0) || (max_chunk c <? av) then w64 (2 * av) else max_chunk c).
  assert (Mx : av <= mx).
  { unfold mx. destruct ((max_chunk c =? 0) || (max_chunk c <? av)) eqn:B.
    - unfold w64. rewrite N.mod_small; [lia|]. change (2 ^ 64) with (2 * 2 ^ 63). lia.
    - lia. }
  clearbody av mn mx. cbn [cfg read_block step_size cdc_cfg min_chunk avg_chunk max_chunk].
  unfold wf_config. cbn [min_size avg_size max_size cdc_cfg min_chunk avg_chunk max_chunk].
  split; [split; [lia|split; lia]|].
  split; [destruct (N.eqb_spec (read_block c) 0); lia|].
  destruct (N.eqb_spec (step_size c) 0) as [Z|Z]; [|lia].
  destruct (N.ltb_spec 0 mn); [lia|]. split; [lia|]. apply N.lt_le_incl. reflexivity.
Qed.

(** ** Buckets *)
Lemma pow_ok mn size : forall fuel k b, (k + fuel = 54)%nat -> b = 1024 * 2 ^ N.of_nat k ->
  exists b', bucket_pow fuel mn size b = Ok b' /\ 1024 <= b'.
Proof.
  induction fuel as [|f IH]; intros k b Hk Hb; cbn [bucket_pow].
  - replace k with 54%nat in Hb by lia. vm_compute in Hb. subst b.
    destruct ((_ <? size) && _ && (_ <? 2 ^ 63)) eqn:B; [|eexists; split; [reflexivity|lia]].
    apply andb_true_iff in B as [_ B]. vm_compute in B. discriminate.
  - destruct ((b <? size) && (b <? mn) && (b <? 2 ^ 63)) eqn:B.
    + apply (IH (S k)); [lia|]. rewrite Nat2N.inj_succ, N.pow_succ_r'. unfold w64.
      apply andb_true_iff in B as [_ B]. apply N.ltb_lt in B.
      rewrite N.mod_small; [lia|]. change (2 ^ 64) with (2 * 2 ^ 63). lia.
    + eexists. split; [reflexivity|]. subst b.
      assert (0 < 2 ^ N.of_nat k) by (apply N.neq_0_lt_0, N.pow_nonzero; discriminate). lia.
Qed.

Lemma pow_mono mn size : forall f g b b', (f <= g)%nat -> bucket_pow f mn size b = Ok b' -> bucket_pow g mn size b = Ok b'.
Proof.
  induction f as [|f IH]; intros g b b' L H.
  - cbn [bucket_pow] in H. destruct g; cbn [bucket_pow]; destruct (_ && _ && _); auto; discriminate.
  - destruct g as [|g]; [lia|]. cbn [bucket_pow] in *. destruct (_ && _ && _); [|exact H].
    apply IH; [lia|exact H].
Qed.

Lemma step_ok st size : 1 <= st <= 2 ^ 63 -> forall fuel b, size <= b + N.of_nat fuel ->
  exists b', bucket_step fuel st size b = Ok b'.
Proof.
  intros Hst. induction fuel as [|f IH]; intros b Hf; cbn [bucket_step].
  - destruct ((b <? size) && (b <? 2 ^ 63)) eqn:B; [lia|eauto].
  - destruct ((b <? size) && (b <? 2 ^ 63)) eqn:B; [|eauto].
    apply IH. apply andb_true_iff in B as [B1 B2]. apply N.ltb_lt in B1, B2.
    unfold w64. rewrite N.mod_small; [lia|]. change (2 ^ 64) with (2 ^ 63 + 2 ^ 63). lia.
Qed.

Lemma size_bucket_ok c size : 1 <= step_size c <= 2 ^ 63 -> exists b, size_bucket c size = Ok b.
Proof.
  intros H. unfold size_bucket.
  destruct (pow_ok (min_chunk c) size 54 0 1024 eq_refl eq_refl) as (b & E & _).
  apply (pow_mono _ _ 54 64) in E; [|lia]. rewrite E. cbn [bind].
  destruct (step_ok (step_size c) size H (N.to_nat size) b) as (b' & E2); [lia|].
  rewrite E2. cbn [bind]. eauto.
Qed.

(** ** Files *)
Lemma blocks_spec n : (1 <= n)%nat -> forall fuel l, (length l <= fuel)%nat ->
  concat (blocks fuel n l) = l /\ Forall (fun b => b <> []) (blocks fuel n l).
Proof.
  intros Hn. induction fuel as [|f IH]; intros l Hl.
  - destruct l; [|cbn in Hl; lia]. split; [reflexivity|constructor].
  - destruct l as [|x l]; [split; [reflexivity|constructor]|].
    cbn [blocks concat]. destruct (IH (skipn n (x :: l))) as [E F].
    + rewrite skipn_length. cbn [length] in *. lia.
    + rewrite E, firstn_skipn. split; [reflexivity|]. constructor; [|exact F].
      destruct n; [lia|]. discriminate.
Qed.

Lemma plan_ok en hw c p : configured en hw c -> exists cs e, plan en p = Ok (cs, e).
Proof.
  intros Hc. destruct (configured_ok en hw c Hc) as (Wf & Rb & _). unfold plan.
  destruct (look_file en p) as [e|content [|]]; [eauto| |].
  - destruct (C01_chunks_concatenate_to_input 64 (gear en) (cdc_cfg (cfg en)) ltac:(lia) Wf
      (filter (fun b => (length b =? N.to_nat (read_block (cfg en)))%nat)
        (blocks (length content) (N.to_nat (read_block (cfg en))) content))) as (cs & rest & E & _).
    rewrite E. cbn [bind fst]. eauto.
  - destruct (blocks_spec (N.to_nat (read_block (cfg en))) ltac:(lia) (length content) content (le_n _)) as [_ F].
    destruct (chunk_stream_spec 64 (gear en) (cdc_cfg (cfg en)) ltac:(lia) Wf _ F) as (cs & E & _).
    rewrite E. cbn [bind fst]. eauto.
Qed.

Lemma plan_good en hw c p cs : configured en hw c -> file_ok en p -> cuts en p cs -> plan en p = Ok (cs, 0).
Proof.
  intros Hc _ (content & Ef & Ec & Hk). destruct (configured_ok en hw c Hc) as (Wf & Rb & _).
  unfold plan. rewrite Ef.
  destruct (blocks_spec (N.to_nat (read_block (cfg en))) ltac:(lia) (length content) content (le_n _)) as [E F].
  destruct (chunk_stream_spec 64 (gear en) (cdc_cfg (cfg en)) ltac:(lia) Wf _ F) as (cs' & E1 & H1 & H2 & _).
  rewrite E1. cbn [bind fst]. rewrite E in H2.
  f_equal. f_equal.
  apply (C04_rule_is_deterministic 64 (gear en) (cdc_cfg (cfg en)) ltac:(lia) Wf); auto. congruence.
Qed.

Lemma plan_status en p cs e : errno_set en -> plan en p = Ok (cs, e) ->
  (e = 0 <-> file_ok en p) /\
  (e <> 0 -> look_file en p = CannotOpen e \/ exists content, look_file en p = Readable content true /\ e = 1).
Proof.
  intros [_ Hf] H. unfold plan in H. unfold file_ok.
  destruct (look_file en p) as [e'|content [|]] eqn:E.
  - injection H as <- <-. split; [|auto]. split; [intros ->; elim (Hf _ _ E eq_refl)|intros (x & X); discriminate].
  - unfold bind in H. destruct (feed _ _ _ _ _) as [r| | |]; try discriminate. injection H as <- <-.
    split; [split; [discriminate|intros (x & X); discriminate]|eauto].
  - unfold bind in H. destruct (chunk_stream _ _ _ _) as [r| | |]; try discriminate. injection H as <- <-.
    split; [split; eauto|congruence].
Qed.

(** ** The invariant *)
Section Inv.
Variable en : env.
Hypothesis Her : errno_set en.

Definition pl (p : str) : list bytes := match plan en p with Ok (cs, _) => cs | _ => [] end.
Definition stat_of (p : str) (e : N) : Prop := exists cs, plan en p = Ok (cs, e).

(** the file a worker works on, the chunks it has still to add, and so on *)
Definition cur (w : worker) : list str :=
  match w with
  | WOpen p | WEmit p _ _ | WStat p _ _ _ _ | WSize p _ _ _ | WFail p _ => [p]
  | _ => []
  end.
Definition todo (w : worker) : list bytes :=
  match w with
  | WOpen p => pl p
  | WEmit _ cs _ | WStat _ _ _ cs _ | WSize _ _ cs _ => cs
  | _ => []
  end.
Definition unstat (w : worker) : list bytes := match w with WStat _ c _ _ _ => [c] | _ => [] end.
Definition unstat_new (w : worker) : list bytes := match w with WStat _ c true _ _ => [c] | _ => [] end.
Definition unsized (w : worker) : list bytes :=
  match w with WStat _ c true _ _ => [c] | WSize _ c _ _ => [c] | _ => [] end.
Definition knows (w : worker) : Prop :=
  match w with
  | WEmit p _ e | WStat p _ _ _ e | WSize p _ _ e | WFail p e => stat_of p e
  | _ => True
  end.
Definition failing (w : worker) : Prop := match w with WFail _ e => e <> 0 | _ => True end.

Definition dir_files (d : option (list str * N)) : list str := match d with Some (l, _) => l | None => [] end.
Definition remaining (s : shared) : list str := dir_files (dir s) ++ files_of en (inputs s).

Definition over {A} (f : worker -> list A) (g : A -> N) (ws : list worker) : N := sum (fun w => sum g (f w)) ws.

Record inv (ins : list str) (y : system) (log : list bytes) (fin bad : list str) : Prop := {
  v_files : forall f : str -> N, sum f (files_of en ins) =
     sum f fin + sum f bad + over cur f (snd y) + sum f (remaining (fst y));
  v_chunks : forall g : bytes -> N, sum g log + over todo g (snd y) =
     sum (fun p => sum g (pl p)) fin + sum (fun p => sum g (pl p)) bad +
     over cur (fun p => sum g (pl p)) (snd y);
  v_total : total_chunks (st (fst y)) + over unstat (fun _ => 1) (snd y) = sum (fun _ => 1) log;
  v_bytes : total_bytes (st (fst y)) + over unstat len (snd y) = sum len log;
  v_unique : unique_chunks (st (fst y)) + over unstat_new (fun _ => 1) (snd y) = sum (fun _ => 1) (chunks (fst y));
  v_ubytes : unique_bytes (st (fst y)) + over unstat_new len (snd y) = sum snd (chunks (fst y));
  v_sizes : forall b, count_at b (sizes (fst y)) +
     over unsized (fun c => match size_bucket (cfg en) (len c) with Ok b' => if b' =? b then 1 else 0 | _ => 0 end) (snd y) =
     sum (fun x => match size_bucket (cfg en) (snd x) with Ok b' => if b' =? b then 1 else 0 | _ => 0 end) (chunks (fst y));
  v_sum : sum snd (sizes (fst y)) + over unsized (fun _ => 1) (snd y) = sum (fun _ => 1) (chunks (fst y));
  v_nodup : NoDup (map fst (chunks (fst y)));
  v_hash : forall h, In h (map fst (chunks (fst y))) <-> In h (map (hash_of en) log);
  v_len : forall h n, In (h, n) (chunks (fst y)) -> exists c, In c log /\ hash_of en c = h /\ len c = n;
  v_done : total_files (st (fst y)) = sum (fun _ => 1) fin;
  v_fin : Forall (fun p => stat_of p 0) fin;
  v_bad : Forall (fun p => exists e, e <> 0 /\ stat_of p e) bad;
  v_knows : Forall knows (snd y);
  v_failing : Forall failing (snd y);
  v_err0 : err (fst y) = 0 -> bad = [] /\
     (forall i, In i ins -> In i (inputs (fst y)) \/ input_ok en i \/
        match dir (fst y) with Some (_, e) => e <> 0 | None => False end);
  v_err1 : err (fst y) <> 0 -> cause en ins (err (fst y));
  v_ins : exists used, ins = used ++ inputs (fst y);
  v_dir : forall l e, dir (fst y) = Some (l, e) -> exists i l', In i ins /\ file_exists en (with_slashes i) = false /\
     look_dir en i = Listing l' e;
  v_stop : In WDone (snd y) -> err (fst y) <> 0 \/ (inputs (fst y) = [] /\ dir (fst y) = None) }.

Lemma over_split {A} (f : worker -> list A) g a w b : over f g (a ++ w :: b) = over f g a + sum g (f w) + over f g b.
Proof. unfold over. rewrite sum_app. cbn [sum]. lia. Qed.

Lemma files_cons i r : files_of en (i :: r) = input_files en i ++ files_of en r.
Proof. reflexivity. Qed.

Lemma denied_spec e : denied e = true <-> permission_errno e.
Proof.
  unfold denied, permission_errno. cbn [In]. rewrite !orb_true_iff, !N.eqb_eq.
  intuition congruence.
Qed.

(** what taking the next job from the inputs does *)
Lemma from_inputs_spec ins j e r d : from_inputs en ins = (j, e, r, d) ->
  (exists used, ins = used ++ r) /\
  (forall f : str -> N, sum f (files_of en ins) =
     match j with Some p => f p | None => 0 end + sum f (dir_files d) + sum f (files_of en r)) /\
  (e = 0 -> (forall i, In i ins -> In i r \/ input_ok en i \/ match d with Some (_, e') => e' <> 0 | None => False end) /\
            (j = None -> r = [] /\ d = None)) /\
  (j <> None -> e = 0) /\
  (e <> 0 -> cause en ins e) /\
  (forall l e', d = Some (l, e') -> exists i l', In i ins /\ file_exists en (with_slashes i) = false /\ look_dir en i = Listing l' e').
Proof.
  revert j e r d. induction ins as [|i ins IH]; intros j e r d H.
  - cbn in H. injection H as <- <- <- <-. split; [exists []; reflexivity|].
    split; [intros; reflexivity|]. split; [intros _; split; [intros i []|auto]|].
    split; [congruence|]. split; [congruence|]. intros; discriminate.
  - cbn [from_inputs] in H. change (to_unix i) with (with_slashes i) in H. rewrite files_cons. unfold input_files at 1.
    assert (Skip : from_inputs en ins = (j, e, r, d) ->
      (forall f : str -> N, sum f (input_files en i) = 0) -> input_ok en i ->
      (exists used, i :: ins = used ++ r) /\
      (forall f : str -> N, sum f (input_files en i ++ files_of en ins) =
         match j with Some p => f p | None => 0 end + sum f (dir_files d) + sum f (files_of en r)) /\
      (e = 0 -> (forall i0, In i0 (i :: ins) -> In i0 r \/ input_ok en i0 \/ match d with Some (_, e') => e' <> 0 | None => False end) /\
            (j = None -> r = [] /\ d = None)) /\
      (j <> None -> e = 0) /\
      (e <> 0 -> cause en (i :: ins) e) /\
      (forall l e', d = Some (l, e') -> exists i0 l', In i0 (i :: ins) /\ file_exists en (with_slashes i0) = false /\ look_dir en i0 = Listing l' e')).
    { intros H0 Z Ok_. destruct (IH _ _ _ _ H0) as ((used & U) & F & E0 & Ej & E1 & Ed).
      split; [exists (i :: used); rewrite U; reflexivity|].
      split; [intros f; rewrite sum_app, Z, F; lia|].
      split.
      { intros X. destruct (E0 X) as [A B]. split; [|exact B]. intros i0 [<-|I]; [auto|]. apply A, I. }
      split; [exact Ej|]. split.
      { intros X. destruct (E1 X) as [i0 l I|i0 I|p I|p c I].
        - eapply bad_listing; eauto. right. exact I.
        - eapply bad_input; eauto. right. exact I.
        - eapply bad_open; eauto. rewrite files_cons. apply in_or_app. right. exact I.
        - eapply bad_read; eauto. rewrite files_cons. apply in_or_app. right. exact I. }
      intros l e' X. destruct (Ed l e' X) as (i0 & l' & I & Y). exists i0, l'. split; [right; exact I|exact Y]. }
    unfold input_files in Skip at 1 2.
    destruct (file_exists en (with_slashes i)) eqn:Ex.
    + injection H as <- <- <- <-. split; [exists [i]; reflexivity|].
      split; [intros f; rewrite sum_app; cbn; lia|].
      split; [intros _; split; [|discriminate]|].
      { intros i0 [<-|I]; [right; left; left; exact Ex|left; exact I]. }
      split; [auto|]. split; [congruence|]. intros; discriminate.
    + destruct (look_dir en i) as [[|f fs] ed|ed] eqn:El.
      * destruct (N.eqb_spec ed 0) as [Z|Z].
        -- apply Skip; auto. right. rewrite El. exact Z.
        -- injection H as <- <- <- <-. split; [exists [i]; reflexivity|].
           split; [intros f; cbn; lia|]. split; [intros X; contradiction|].
           split; [congruence|]. split; [|intros; discriminate].
           intros _. eapply bad_listing; eauto. left. reflexivity.
      * injection H as <- <- <- <-. split; [exists [i]; reflexivity|].
        split; [intros g; rewrite sum_app; cbn [sum dir_files]; lia|].
        split; [intros _; split; [|discriminate]|].
        { intros i0 [<-|I]; [|left; exact I]. right. destruct (N.eq_dec ed 0) as [Z|Z]; [left|right; exact Z].
          right. rewrite El. exact Z. }
        split; [auto|]. split; [congruence|].
        intros l e' X. injection X as <- <-. exists i, (f :: fs). split; [left; reflexivity|]. split; auto.
      * destruct (denied ed) eqn:Dn.
        -- apply Skip; auto. right. rewrite El. apply denied_spec, Dn.
        -- injection H as <- <- <- <-. split; [exists [i]; reflexivity|].
           split; [intros f; cbn; lia|].
           split; [intros X; elim (proj1 Her _ _ El X)|].
           split; [congruence|]. split; [|intros; discriminate].
           intros _. eapply bad_input; eauto; [left; reflexivity|].
           intros P. apply denied_spec in P. congruence.
Qed.

Lemma next_job_spec s j e r d : next_job en s = (j, e, r, d) ->
  (forall l e', dir s = Some (l, e') -> exists i l', file_exists en (with_slashes i) = false /\ look_dir en i = Listing l' e') ->
  (exists used, inputs s = used ++ r) /\
  (forall f : str -> N, sum f (remaining s) =
     match j with Some p => f p | None => 0 end + sum f (dir_files d) + sum f (files_of en r)) /\
  (j <> None -> e = 0) /\
  (e = 0 -> j = None -> r = [] /\ d = None) /\
  (e = 0 -> forall i, In i (inputs s) -> In i r \/ input_ok en i \/ match d with Some (_, e') => e' <> 0 | None => False end) /\
  (e = 0 -> match dir s with Some (_, e') => e' <> 0 | None => False end ->
            match d with Some (_, e') => e' <> 0 | None => False end) /\
  (e <> 0 -> (cause en (inputs s) e) \/ exists l, dir s = Some (l, e)) /\
  (forall l e', d = Some (l, e') -> (exists l0, dir s = Some (l0, e')) \/
      exists i l', In i (inputs s) /\ file_exists en (with_slashes i) = false /\ look_dir en i = Listing l' e').
Proof.
  intros H Hd. unfold next_job in H. unfold remaining.
  assert (Gen : forall e0, dir s = None \/ dir s = Some ([], e0) /\ e0 = 0 -> from_inputs en (inputs s) = (j, e, r, d) ->
    (exists used, inputs s = used ++ r) /\
    (forall f : str -> N, sum f (dir_files (dir s) ++ files_of en (inputs s)) =
       match j with Some p => f p | None => 0 end + sum f (dir_files d) + sum f (files_of en r)) /\
    (j <> None -> e = 0) /\
    (e = 0 -> j = None -> r = [] /\ d = None) /\
    (e = 0 -> forall i, In i (inputs s) -> In i r \/ input_ok en i \/ match d with Some (_, e') => e' <> 0 | None => False end) /\
    (e = 0 -> match dir s with Some (_, e') => e' <> 0 | None => False end ->
            match d with Some (_, e') => e' <> 0 | None => False end) /\
    (e <> 0 -> (cause en (inputs s) e) \/ exists l, dir s = Some (l, e)) /\
    (forall l e', d = Some (l, e') -> (exists l0, dir s = Some (l0, e')) \/
      exists i l', In i (inputs s) /\ file_exists en (with_slashes i) = false /\ look_dir en i = Listing l' e')).
  { intros e0 Ds Hf. destruct (from_inputs_spec _ _ _ _ _ Hf) as (U & F & E0 & Ej & E1 & Ed).
    assert (Z : dir_files (dir s) = []) by (destruct Ds as [-> | [-> _]]; reflexivity).
    rewrite Z. cbn [app].
    split; [exact U|]. split; [exact F|]. split; [exact Ej|].
    split; [intros X; exact (proj2 (E0 X))|]. split; [intros X; exact (proj1 (E0 X))|].
    split. { intros _ Y. destruct Ds as [D | [D D0]]; rewrite D in Y; [destruct Y|congruence]. }
    split; [intros X; left; exact (E1 X)|].
    intros l e' X. right. exact (Ed l e' X). }
  destruct (dir s) as [[[|f fs] e0]|] eqn:D.
  - destruct (N.eqb_spec e0 0) as [Z|Z].
    + apply (Gen e0); auto.
    + injection H as <- <- <- <-. split; [exists []; reflexivity|].
      split; [intros f; cbn; lia|]. split; [congruence|].
      split; [congruence|]. split; [congruence|]. split; [congruence|].
      split; [intros _; right; eauto|]. intros; discriminate.
  - injection H as <- <- <- <-. split; [exists []; reflexivity|].
    split; [intros g; rewrite sum_app; cbn [sum dir_files]; lia|].
    split; [auto|]. split; [discriminate|]. split; [auto|]. split; [auto|]. split; [congruence|].
    intros l e' X. injection X as <- <-. left. eauto.
  - apply (Gen 0); auto.
Qed.

Lemma fw (P : worker -> Prop) a w w' b : Forall P (a ++ w :: b) -> P w' -> Forall P (a ++ w' :: b).
Proof.
  rewrite !Forall_app. intros [A B] H. split; [exact A|]. constructor; [exact H|].
  exact (Forall_inv_tail B).
Qed.
Lemma fwi (P : worker -> Prop) a w b : Forall P (a ++ w :: b) -> P w.
Proof. rewrite Forall_app. intros [_ B]. exact (Forall_inv B). Qed.
Lemma in_done a w w' b : w' <> WDone -> In WDone (a ++ w' :: b) -> In WDone (a ++ w :: b).
Proof. rewrite !in_app_iff. cbn [In]. intuition congruence. Qed.

Lemma has_hash_in h m : has_hash h m = true <-> In h (map fst m).
Proof.
  unfold has_hash. rewrite existsb_exists, in_map_iff. split.
  - intros (x & I & E). destruct (seqb_spec h (fst x)); [eauto|discriminate].
  - intros (x & E & I). exists x. split; [exact I|]. rewrite E. apply seqb_refl.
Qed.

Lemma count_incr b b' m : count_at b (incr b' m) = count_at b m + (if b' =? b then 1 else 0).
Proof.
  induction m as [|[k v] m IH]; cbn [incr].
  - unfold count_at. cbn [sum fst snd]. destruct (b' =? b); lia.
  - destruct (N.eqb_spec k b') as [->|Hk].
    + unfold count_at. cbn [sum fst snd]. destruct (b' =? b); lia.
    + unfold count_at in *. cbn [sum fst snd]. rewrite IH. lia.
Qed.
Lemma sum_incr b m : sum snd (incr b m) = sum snd m + 1.
Proof.
  induction m as [|[k v] m IH]; cbn [incr]; [reflexivity|].
  destruct (k =? b); cbn [sum snd]; [lia|]. rewrite IH. lia.
Qed.

Lemma cause_mono ins used r e : ins = used ++ r -> cause en r e -> cause en ins e.
Proof.
  intros -> [i l I|i I|p I|p c I].
  - eapply bad_listing; eauto. apply in_or_app. right. exact I.
  - eapply bad_input; eauto. apply in_or_app. right. exact I.
  - eapply bad_open; eauto. unfold files_of in *. rewrite map_app, concat_app. apply in_or_app. right. exact I.
  - eapply bad_read; eauto. unfold files_of in *. rewrite map_app, concat_app. apply in_or_app. right. exact I.
Qed.

Lemma cur_listed ins y log fin bad p : inv ins y log fin bad ->
  (exists w, In w (snd y) /\ In p (cur w)) -> In p (files_of en ins).
Proof.
  intros V (w & I & J). apply eqs_in. rewrite (v_files _ _ _ _ _ V).
  assert (0 < over cur (eqs p) (snd y)); [|lia].
  unfold over. apply sum_pos. exists w. split; [exact I|]. apply eqs_in, J.
Qed.

Ltac sh := cbn [fst snd st chunks sizes err inputs dir set_jobs set_chunks set_st set_sizes set_error
   total_files total_chunks unique_chunks total_bytes unique_bytes add_stat add_file] in *.
Ltac ov := unfold remaining in *; sh; rewrite ?over_split in *; cbn [cur todo unstat unstat_new unsized sum fst snd] in *.

Lemma inv_act ins s a w b log fin bad s' w' : inv ins (s, a ++ w :: b) log fin bad ->
  act en s w s' w' -> exists log' fin' bad', inv ins (s', a ++ w' :: b) log' fin' bad'.
Proof.
  intros V A. pose proof V as V0.
  destruct V as [F C T B U UB Z ZS ND Hh Hl Dn Fi Ba Kn Fa E0 E1 In_ Di Sp].
  destruct A as [s Er|s Er|s p e i d J|s e i d J|s p cs e P|s p c cs e K|s p c cs e K|s p c new cs e|s p c cs e bk K|s p|s p e Ne|s p e].
  - (* error seen *)
    exists log, fin, bad. constructor; sh; auto;
      try (intros x; first [specialize (Z x) | (pose proof (F x) as Fx; pose proof (C x) as Cx)]); ov; try lia.
    all: try (eapply fw; eauto; exact Logic.I).
    all: try (intros _; left; exact Er).
  - exists log, fin, bad. constructor; sh; auto;
      try (intros x; first [specialize (Z x) | (pose proof (F x) as Fx; pose proof (C x) as Cx)]); ov; try lia.
    all: try (eapply fw; eauto; exact Logic.I).
    intros X. apply Sp. eapply in_done; [|exact X]. discriminate.
  - (* a job *)
    destruct (next_job_spec _ _ _ _ _ J) as ((used & Us) & Fs & Ej & _ & Ei & Edd & _ & Ed).
    { intros l e' X. sh. destruct (Di l e' X) as (i0 & l' & _ & Y). eauto. }
    assert (e = 0) by (apply Ej; discriminate). subst e.
    exists log, fin, bad. constructor; sh; auto;
      try (intros x; first [specialize (Z x) | (pose proof (F x) as Fx; pose proof (C x) as Cx)]); ov; try lia.
    + specialize (Fs x). unfold remaining. sh. rewrite sum_app. unfold remaining in *. lia.
    + eapply fw; eauto. exact Logic.I.
    + eapply fw; eauto. exact Logic.I.
    + intros X. destruct (E0 X) as [E0a E0b]. split; [exact E0a|]. intros i0 I0.
      destruct (E0b i0 I0) as [Y|[Y|Y]]; [exact (Ei eq_refl i0 Y)|auto|right; right; exact (Edd eq_refl Y)].
    + destruct In_ as (u0 & ->). exists (u0 ++ used). rewrite Us, app_assoc. reflexivity.
    + intros l e' X. destruct (Ed l e' X) as [(l0 & Y)|(i0 & l' & I0 & Y)]; [eauto|].
      exists i0, l'. split; [|exact Y]. destruct In_ as (u0 & ->). apply in_or_app. right. exact I0.
    + intros X. apply (in_done a WLock) in X; [|discriminate]. destruct (Sp X) as [Y|[Y1 Y2]]; auto.
      unfold next_job in J. rewrite Y1, Y2 in J. cbn in J. discriminate.
  - (* no job *)
    destruct (next_job_spec _ _ _ _ _ J) as ((used & Us) & Fs & _ & E00 & Ei & Edd & Ec & Ed).
    { intros l e' X. sh. destruct (Di l e' X) as (i0 & l' & _ & Y). eauto. }
    exists log, fin, bad. constructor; sh; auto;
      try (intros x; first [specialize (Z x) | (pose proof (F x) as Fx; pose proof (C x) as Cx)]); ov; try lia.
    + specialize (Fs x). unfold remaining. sh. rewrite sum_app. unfold remaining in *. lia.
    + eapply fw; eauto. exact Logic.I.
    + eapply fw; eauto. exact Logic.I.
    + intros X. destruct (N.eqb_spec e 0) as [->|Ne].
      * destruct (E0 X) as [E0a E0b]. split; [exact E0a|]. intros i0 I0.
        destruct (E0b i0 I0) as [Y|[Y|Y]]; [exact (Ei eq_refl i0 Y)|auto|right; right; exact (Edd eq_refl Y)].
      * destruct (N.eqb_spec (err s) 0); [contradiction|contradiction].
    + intros X. destruct (N.eqb_spec e 0) as [->|Ne]; [auto|].
      destruct (N.eqb_spec (err s) 0) as [Es|Es]; [|auto].
      destruct (Ec Ne) as [Y|(l & Y)].
      * destruct In_ as (u0 & Eu). exact (cause_mono _ _ _ _ Eu Y).
      * destruct (Di l e Y) as (i0 & l' & I0 & Y1 & Y2). eapply bad_listing; eauto.
    + destruct In_ as (u0 & ->). exists (u0 ++ used). rewrite Us, app_assoc. reflexivity.
    + intros l e' X. destruct (Ed l e' X) as [(l0 & Y)|(i0 & l' & I0 & Y)]; [eauto|].
      exists i0, l'. split; [|exact Y]. destruct In_ as (u0 & ->). apply in_or_app. right. exact I0.
    + intros _. destruct (N.eqb_spec e 0) as [->|Ne].
      * right. apply E00; auto.
      * left. destruct (N.eqb_spec (err s) 0); auto.
  - (* open *)
    exists log, fin, bad. constructor; sh; auto;
      try (intros x; first [specialize (Z x) | (pose proof (F x) as Fx; pose proof (C x) as Cx)]); ov; try lia.
    + unfold pl in Cx. rewrite P in Cx. unfold pl. rewrite P. lia.
    + eapply fw; eauto. exists cs. exact P.
    + eapply fw; eauto. exact Logic.I.
    + intros X. apply Sp. eapply in_done; [|exact X]. discriminate.
  - (* known chunk *)
    exists (log ++ [c]), fin, bad.
    constructor; sh; auto;
      try (intros x; first [specialize (Z x) | (pose proof (F x) as Fx; pose proof (C x) as Cx)]); rewrite ?sum_app; ov; try lia.
    + intros h. rewrite Hh. rewrite map_app, in_app_iff. cbn [map In]. split; [auto|].
      intros [X|[<-|[]]]; [exact X|]. apply Hh, has_hash_in, K.
    + intros h n X. destruct (Hl h n X) as (c0 & I0 & Y). exists c0. split; [apply in_or_app; left; exact I0|exact Y].
    + eapply fw; eauto. exact (fwi _ _ _ _ Kn).
    + eapply fw; eauto. exact Logic.I.
    + intros X. apply Sp. eapply in_done; [|exact X]. discriminate.
  - (* new chunk *)
    exists (log ++ [c]), fin, bad.
    constructor; sh; auto;
      try (intros x; first [specialize (Z x) | (pose proof (F x) as Fx; pose proof (C x) as Cx)]); rewrite ?sum_app; ov; try lia.
    + rewrite map_app. cbn [map fst]. apply (Permutation_NoDup (Permutation_cons_append _ _)).
      constructor; [|exact ND]. intros X. apply has_hash_in in X. congruence.
    + intros h. rewrite !map_app, !in_app_iff. cbn [map In fst]. rewrite Hh. reflexivity.
    + intros h n X. apply in_app_or in X as [X|[X|[]]].
      * destruct (Hl h n X) as (c0 & I0 & Y). exists c0. split; [apply in_or_app; left; exact I0|exact Y].
      * injection X as <- <-. exists c. split; [apply in_or_app; right; left; reflexivity|auto].
    + eapply fw; eauto. exact (fwi _ _ _ _ Kn).
    + eapply fw; eauto. exact Logic.I.
    + intros X. apply Sp. eapply in_done; [|exact X]. discriminate.
  - (* statistics *)
    exists log, fin, bad. constructor; sh; auto;
      try (intros x; first [specialize (Z x) | (pose proof (F x) as Fx; pose proof (C x) as Cx)]); ov; try (destruct new; ov; lia).
    + eapply fw; eauto. destruct new; exact (fwi _ _ _ _ Kn).
    + eapply fw; eauto. destruct new; exact Logic.I.
    + intros X. apply Sp. eapply in_done; [|exact X]. destruct new; discriminate.
  - (* sizes *)
    exists log, fin, bad. constructor; sh; auto;
      try (intros x; first [specialize (Z x) | (pose proof (F x) as Fx; pose proof (C x) as Cx)]); ov; try lia.
    + rewrite count_incr. rewrite K in Z. lia.
    + rewrite sum_incr. lia.
    + eapply fw; eauto. exact (fwi _ _ _ _ Kn).
    + eapply fw; eauto. exact Logic.I.
    + intros X. apply Sp. eapply in_done; [|exact X]. discriminate.
  - (* file done *)
    exists log, (fin ++ [p]), bad. constructor; sh; auto;
      try (intros x; first [specialize (Z x) | (pose proof (F x) as Fx; pose proof (C x) as Cx)]); rewrite ?sum_app; ov; try lia.
    + rewrite Forall_app. split; [exact Fi|]. constructor; [|constructor]. exact (fwi _ _ _ _ Kn).
    + eapply fw; eauto. exact Logic.I.
    + eapply fw; eauto. exact Logic.I.
    + intros X. apply Sp. eapply in_done; [|exact X]. discriminate.
  - (* file failed *)
    exists log, fin, bad. constructor; sh; auto;
      try (intros x; first [specialize (Z x) | (pose proof (F x) as Fx; pose proof (C x) as Cx)]); ov; try lia.
    + eapply fw; eauto. exact (fwi _ _ _ _ Kn).
    + eapply fw; eauto.
    + intros X. apply Sp. eapply in_done; [|exact X]. discriminate.
  - (* SetError *)
    pose proof (fwi _ _ _ _ Kn) as Kp. pose proof (fwi _ _ _ _ Fa) as Ne. sh. cbn [failing knows] in Ne, Kp.
    exists log, fin, (bad ++ [p]). constructor; sh; auto;
      try (intros x; first [specialize (Z x) | (pose proof (F x) as Fx; pose proof (C x) as Cx)]); rewrite ?sum_app; ov; try lia.
    + rewrite Forall_app. split; [exact Ba|]. constructor; [|constructor]. eauto.
    + eapply fw; eauto. exact Logic.I.
    + eapply fw; eauto. exact Logic.I.
    + destruct (N.eqb_spec e 0); [contradiction|]. destruct (N.eqb_spec (err s) 0); congruence.
    + intros X. destruct (N.eqb_spec e 0) as [->|_]; [contradiction|].
      destruct (N.eqb_spec (err s) 0) as [Es|Es]; [|auto].
      assert (Ip : In p (files_of en ins)).
      { apply (cur_listed _ _ _ _ _ p V0). exists (WFail p e). split; [|left; reflexivity].
        apply in_or_app. right. left. reflexivity. }
      destruct Kp as (cs & P). destruct (plan_status _ _ _ _ Her P) as [_ Q].
      destruct (Q Ne) as [Y|(content & Y & ->)].
      * eapply bad_open; eauto.
      * eapply bad_read; eauto.
    + intros _. left. destruct (N.eqb_spec e 0); [contradiction|]. destruct (N.eqb_spec (err s) 0); auto.
Qed.

Lemma inv_start ins : inv ins (start en ins) [] [] [].
Proof.
  assert (O : forall (A : Type) (f : worker -> list A) g, f WCheck = [] ->
    over f g (repeat WCheck (N.to_nat (threads (cfg en)))) = 0).
  { intros A f g H. unfold over. induction (N.to_nat _) as [|n IH]; [reflexivity|].
    cbn [repeat sum]. rewrite H, IH. reflexivity. }
  unfold start. constructor; cbn [fst snd st chunks sizes err inputs dir total_files total_chunks
     unique_chunks total_bytes unique_bytes sum map]; intros; rewrite ?O by reflexivity; auto.
  - constructor.
  - reflexivity.
  - contradiction.
  - apply Forall_forall. intros w Hw. apply repeat_spec in Hw. subst w. exact Logic.I.
  - apply Forall_forall. intros w Hw. apply repeat_spec in Hw. subst w. exact Logic.I.
  - congruence.
  - exists []. reflexivity.
  - discriminate.
  - exfalso. apply repeat_spec in H. discriminate.
Qed.

Lemma inv_reach ins y : reach en ins y -> exists log fin bad, inv ins y log fin bad.
Proof.
  induction 1 as [|x y R (log & fin & bad & V) S].
  - eexists _, _, _. apply inv_start.
  - destruct S as [s a w b s' w' A]. exact (inv_act _ _ _ _ _ _ _ _ _ _ V A).
Qed.
End Inv.
