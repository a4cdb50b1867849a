(** C59: ManifestIterator (manifest/manifest_iterator.cc). *)
From Verif Require Import Base ListX ModelChunkMap ModelManifest SpecIter ModelIter ProofIter.
From Verif Require ModelAsset.
From Coq Require Import Lia.
Local Notation str := (list N).

(** After Open, NextEntry returns the assets of the manifest one by one in the order of the
    traversal, RelativePath is the path of the directory each is in, then NextEntry returns
    null for good; Status is an error exactly if a list could not be read. This holds
    whatever addresses the allocator hands out, also if it reuses freed ones. *)
Theorem C59_iterates : forall store alloc root es ok, (forall k live, ~ In (alloc k live) live) -> walk_dir store [] root es ok ->
  a_name root = [] -> (forall p a, In (p, a) es -> a_type a = TDir -> proper_name (a_name a)) ->
  exists fuel0, forall fuel k, (fuel0 <= fuel)%nat -> exists s,
    calls store alloc fuel (length es + S k) (opened alloc root) = Ok (map (fun e => Some (text (fst e), snd e)) es ++ repeat None (S k), s) /\ s_ok s = ok.
Proof.
  intros store alloc root es ok Fr W Rn Pn. destruct (walk_runs store alloc Fr) as (_ & _ & D). specialize (D [] root es ok W Pn (opened alloc root)).
  destruct (s_dirs (opened alloc root)) as [|d r] eqn:Ed; [discriminate|]. assert (X : d = mkod (alloc 0%nat []) root None 0 0 0 /\ r = []) by (cbn in Ed; inversion Ed; subst; auto). destruct X as (-> & ->).
  specialize (D _ _ eq_refl (opened_wf alloc root)). specialize (D ltac:(split; [constructor|]; unfold relof; cbn; rewrite Rn; reflexivity) eq_refl eq_refl eq_refl eq_refl).
  assert (E : exists n s2, isteps store alloc n (opened alloc root) (emit es) s2 /\ (s_dirs s2 = [] \/ s_ok s2 = false) /\ s_ok s2 = ok).
  { destruct ok; [destruct D as (n & s2 & A & B & C)|destruct D as (n & s2 & A & B)]; exists n, s2; (split; [exact A|]); split; auto. apply C. }
  destruct E as (n & s2 & A & B & C). exists (S n). intros fuel k L. exists s2. split; [|exact C].
  pose proof (isteps_calls store alloc Fr n _ _ _ A B fuel k ltac:(lia)) as Q. unfold emit in Q at 1. rewrite map_length in Q. rewrite Q. unfold emit. now rewrite map_map.
Qed.

Section Walk.
Variable store : cid -> option (list asset).
Lemma child_list d id l c : In id (a_ind d) -> store id = Some l -> In c l -> child store d c.
Proof. intros A B C. right. eauto. Qed.
(** ** Soundness *)
Definition S_items (p : list str) (items : list asset) (es : list (list str * asset)) (ok : bool) : Prop :=
  forall root d, dir_at store root p d -> (forall c, In c items -> child store d c) ->
    (forall q a, In (q, a) es -> exists d2, dir_at store root q d2 /\ child store d2 a) /\
    (ok = false -> exists q d2 id, dir_at store root q d2 /\ In id (a_ind d2) /\ store id = None).
Definition S_lists (p : list str) (ids : list cid) (es : list (list str * asset)) (ok : bool) : Prop :=
  forall root d, dir_at store root p d -> (forall id, In id ids -> In id (a_ind d)) ->
    (forall q a, In (q, a) es -> exists d2, dir_at store root q d2 /\ child store d2 a) /\
    (ok = false -> exists q d2 id, dir_at store root q d2 /\ In id (a_ind d2) /\ store id = None).
Definition S_dir (p : list str) (d : asset) (es : list (list str * asset)) (ok : bool) : Prop :=
  forall root, dir_at store root p d ->
    (forall q a, In (q, a) es -> exists d2, dir_at store root q d2 /\ child store d2 a) /\
    (ok = false -> exists q d2 id, dir_at store root q d2 /\ In id (a_ind d2) /\ store id = None).
Lemma walk_sound : (forall p items es ok, walk_items store p items es ok -> S_items p items es ok) /\
  (forall p ids es ok, walk_lists store p ids es ok -> S_lists p ids es ok) /\ (forall p d es ok, walk_dir store p d es ok -> S_dir p d es ok).
Proof.
  apply (walk_mut store (fun p items es ok _ => S_items p items es ok) (fun p ids es ok _ => S_lists p ids es ok) (fun p d es ok _ => S_dir p d es ok)).
  - intros p root d D C. split; [intros q a []|discriminate].
  - intros p a l es ok T _ IH root d D C. destruct (IH root d D) as (A & B); [intros c Hc; apply C; now right|]. split; [|exact B]. intros q x [E|H]; [inversion E; subst; exists d; split; [exact D|apply C; now left]|auto].
  - intros p a l es1 es2 ok T _ IH1 _ IH2 root d D C. destruct (IH1 root) as (A1 & _); [econstructor; [exact D|apply C; now left|exact T]|]. destruct (IH2 root d D) as (A & B); [intros c Hc; apply C; now right|]. split; [|exact B].
    intros q x [E|H]; [inversion E; subst; exists d; split; [exact D|apply C; now left]|]. apply in_app_iff in H. destruct H; auto.
  - intros p a l es T _ IH root d D C. destruct (IH root) as (A1 & B1); [econstructor; [exact D|apply C; now left|exact T]|]. split; [|exact B1]. intros q x [E|H]; [inversion E; subst; exists d; split; [exact D|apply C; now left]|auto].
  - intros p root d D C. split; [intros q a []|discriminate].
  - intros p id r Sn root d D C. split; [intros q a []|]. intros _. exists p, d, id. split; [exact D|]. split; [apply C; now left|exact Sn].
  - intros p id r l es Sn _ IH root d D C. apply (IH root d D). intros c Hc. apply (child_list d id l c); [apply C; now left|exact Sn|exact Hc].
  - intros p id r l es1 es2 ok Sn _ IH1 _ IH2 root d D C. destruct (IH1 root d D) as (A1 & _); [intros c Hc; apply (child_list d id l c); [apply C; now left|exact Sn|exact Hc]|].
    destruct (IH2 root d D) as (A2 & B2); [intros i Hi; apply C; now right|]. split; [|exact B2]. intros q a H. apply in_app_iff in H. destruct H; auto.
  - intros p d es _ IH root D. apply (IH root d D). intros c Hc. now left.
  - intros p d es1 es2 ok _ IH1 _ IH2 root D. destruct (IH1 root d D) as (A1 & _); [intros c Hc; now left|]. destruct (IH2 root d D) as (A2 & B2); [auto|]. split; [|exact B2]. intros q a H. apply in_app_iff in H. destruct H; auto.
Qed.
(** ** Completeness *)
Lemma dir_at_front d q d2 : dir_at store d q d2 -> (q = [] /\ d2 = d) \/ exists c q2, child store d c /\ a_type c = TDir /\ q = a_name c :: q2 /\ dir_at store c q2 d2.
Proof.
  intros H. induction H as [|p d1 c H IH Hc Ht]; [now left|]. right. destruct IH as [(-> & ->)|(c1 & q2 & A & B & -> & D)].
  - exists c, []. repeat split; auto. constructor.
  - exists c1, (q2 ++ [a_name c]). repeat split; auto. econstructor; eassumption.
Qed.
Definition below (p : list str) (c : asset) (es : list (list str * asset)) : Prop :=
  In (p, c) es /\ (a_type c = TDir -> forall q d2, dir_at store c q d2 -> (forall a, child store d2 a -> In (p ++ a_name c :: q, a) es) /\ forall id, In id (a_ind d2) -> store id <> None).
Definition T_items (p : list str) (items : list asset) (es : list (list str * asset)) (ok : bool) : Prop := ok = true -> forall c, In c items -> below p c es.
Definition T_lists (p : list str) (ids : list cid) (es : list (list str * asset)) (ok : bool) : Prop :=
  ok = true -> forall id, In id ids -> store id <> None /\ forall l c, store id = Some l -> In c l -> below p c es.
Definition T_dir (p : list str) (d : asset) (es : list (list str * asset)) (ok : bool) : Prop :=
  ok = true -> forall q d2, dir_at store d q d2 -> (forall a, child store d2 a -> In (p ++ q, a) es) /\ forall id, In id (a_ind d2) -> store id <> None.
Lemma below_more p c a b e : below p c e -> below p c (a ++ e ++ b).
Proof.
  intros (A & B). split; [apply in_app_iff; right; apply in_app_iff; now left|]. intros T q d2 D. destruct (B T q d2 D) as (B1 & B2). split; [|exact B2]. intros x X. apply in_app_iff. right. apply in_app_iff. left. auto.
Qed.
Lemma below_l p c e b : below p c e -> below p c (e ++ b). Proof. exact (below_more p c [] b e). Qed.
Lemma below_r p c a e : below p c e -> below p c (a ++ e). Proof. intros H. pose proof (below_more p c a [] e H) as X. now rewrite app_nil_r in X. Qed.
Lemma walk_complete : (forall p items es ok, walk_items store p items es ok -> T_items p items es ok) /\
  (forall p ids es ok, walk_lists store p ids es ok -> T_lists p ids es ok) /\ (forall p d es ok, walk_dir store p d es ok -> T_dir p d es ok).
Proof.
  apply (walk_mut store (fun p items es ok _ => T_items p items es ok) (fun p ids es ok _ => T_lists p ids es ok) (fun p d es ok _ => T_dir p d es ok)).
  - intros p _ c [].
  - intros p a l es ok T _ IH K c [<-|Hc]; [split; [now left|congruence]|]. exact (below_r p c [(p, a)] es (IH K c Hc)).
  - intros p a l es1 es2 ok T _ IH1 _ IH2 K c [<-|Hc].
    + split; [now left|]. intros _ q d2 D. destruct (IH1 eq_refl q d2 D) as (A & B). split; [|exact B]. intros x X. right. apply in_app_iff. left. specialize (A x X). rewrite <- app_assoc in A. exact A.
    + apply (below_r p c ((p, a) :: es1) es2). exact (IH2 K c Hc).
  - discriminate.
  - intros p _ id [].
  - discriminate.
  - discriminate.
  - intros p id r l es1 es2 ok Sn _ IH1 _ IH2 K i [<-|Hi].
    + split; [congruence|]. intros l2 c E Hc. assert (l2 = l) by congruence. subst. apply below_l. exact (IH1 eq_refl c Hc).
    + destruct (IH2 K i Hi) as (A & B). split; [exact A|]. intros l2 c E Hc. apply below_r. exact (B l2 c E Hc).
  - discriminate.
  - intros p d es1 es2 ok _ IH1 _ IH2 K q d2 D.
    assert (Be : forall c, child store d c -> below p c (es1 ++ es2)).
    { intros c [Hc|(id & l & Hi & Sn & Hc)]; [apply below_l; exact (IH1 eq_refl c Hc)|]. apply below_r. destruct (IH2 K id Hi) as (_ & B). exact (B l c Sn Hc). }
    destruct (dir_at_front d q d2 D) as [(-> & ->)|(c & q2 & Hc & Tc & -> & D2)].
    + rewrite app_nil_r. split; [intros a Ha; apply (Be a Ha)|]. intros id Hi. apply (IH2 K id Hi).
    + destruct (Be c Hc) as (_ & B). destruct (B Tc q2 d2 D2) as (B1 & B2). split; [exact B1|exact B2].
Qed.
End Walk.
(** The entries returned are entries of directories of the manifest, at the right paths; if
    there was no error they are all of them, and an error means that a list could not be
    read. *)
Theorem C59_entries : forall store root es ok, walk_dir store [] root es ok ->
  (forall p a, In (p, a) es -> exists d, dir_at store root p d /\ child store d a) /\
  (ok = true -> forall p d, dir_at store root p d -> (forall a, child store d a -> In (p, a) es) /\ forall id, In id (a_ind d) -> store id <> None) /\
  (ok = false -> exists p d id, dir_at store root p d /\ In id (a_ind d) /\ store id = None).
Proof.
  intros store root es ok W. destruct (walk_sound store) as (_ & _ & S). destruct (S _ _ _ _ W root (da_root _ _)) as (A & B). split; [exact A|]. split; [|exact B].
  intros K p d D. destruct (walk_complete store) as (_ & _ & C). exact (C _ _ _ _ W K p d D).
Qed.
Fixpoint sz (a : asset) : nat := let '(Asset _ _ d _) := a in S (list_sum (map sz d)).
Lemma in_size a l : In a l -> (sz a < S (list_sum (map sz l)))%nat.
Proof. intros H. induction l as [|x l IH]; [destruct H|]. cbn [map list_sum fold_right]. destruct H as [-> |H]; [|specialize (IH H)]; unfold list_sum in *; lia. Qed.
Lemma sz_child a c : In c (a_dirs a) -> (sz c < sz a)%nat.
Proof. intros H. destruct a as [n i d x]. exact (in_size c d H). Qed.
(** Every manifest whose lists do not contain themselves has a traversal, and only one. *)
Theorem C59_total : forall store root, acyclic store -> exists es ok, walk_dir store [] root es ok.
Proof.
  intros store root (rank & Ra).
  assert (It : forall items, (forall c, In c items -> a_type c = TDir -> forall p, exists es ok, walk_dir store p c es ok) -> forall p, exists es ok, walk_items store p items es ok).
  { induction items as [|c items IH]; intros H p; [exists [], true; constructor|]. destruct (IH (fun c Hc => H c (or_intror Hc)) p) as (es2 & ok2 & W2).
    destruct (type_eqb (a_type c) TDir) eqn:T.
    - apply type_eqb_dir in T. destruct (H c (or_introl eq_refl) T (p ++ [a_name c])) as (es1 & ok1 & W1). destruct ok1; [exists ((p, c) :: es1 ++ es2), ok2; now apply wi_dir|exists ((p, c) :: es1), false; now apply wi_dir_fail].
    - exists ((p, c) :: es2), ok2. apply wi_other; [|exact W2]. intros X. apply type_eqb_dir in X. congruence. }
  assert (Ls : forall ids, (forall id l c, In id ids -> store id = Some l -> In c l -> forall p, exists es ok, walk_dir store p c es ok) -> forall p, exists es ok, walk_lists store p ids es ok).
  { induction ids as [|id ids IH]; intros H p; [exists [], true; constructor|]. destruct (IH (fun i l c Hi => H i l c (or_intror Hi)) p) as (es2 & ok2 & W2). destruct (store id) as [l|] eqn:Sn; [|exists [], false; now apply wl_none].
    destruct (It l (fun c Hc _ => H id l c (or_introl eq_refl) Sn Hc) p) as (es1 & ok1 & W1). destruct ok1; [exists (es1 ++ es2), ok2; eapply wl_cons; eassumption|exists es1, false; eapply wl_fail; eassumption]. }
  assert (G : forall n, forall a, (forall id, refers a id -> (rank id < n)%nat) -> forall p, exists es ok, walk_dir store p a es ok).
  { induction n as [n IHn] using lt_wf_ind. intros a. remember (sz a) as k eqn:Ek. revert a Ek. induction k as [k IHk] using lt_wf_ind. intros a Ek Hr p.
    destruct (It (a_dirs a)) with (p := p) as (es1 & ok1 & W1).
    { intros c Hc _ q. apply (IHk (sz c)); [|reflexivity|]; [|intros id Hi; apply Hr; exact (rf_sub a c id Hc Hi)]. subst k. exact (sz_child a c Hc). }
    destruct ok1; [|exists es1, false; now apply wd_fail]. destruct (Ls (a_ind a)) with (p := p) as (es2 & ok2 & W2).
    { intros id l c Hi Sn Hc q. apply (IHn (rank id)); [apply Hr; now apply rf_here|]. intros id2 R2. exact (Ra id l c id2 Sn Hc R2). }
    exists (es1 ++ es2), ok2. now apply wd_ok. }
  assert (B : exists n, forall id, refers root id -> (rank id < n)%nat).
  { assert (B0 : forall k a, (sz a <= k)%nat -> exists n, forall id, refers a id -> (rank id < n)%nat).
    { induction k as [|k IHk]; intros a L; [destruct a; cbn in L; lia|].
      assert (Bl : forall l, (forall c, In c l -> (sz c <= k)%nat) -> exists n, forall c id, In c l -> refers c id -> (rank id < n)%nat).
      { induction l as [|c l IHl]; intros Hl; [exists 0%nat; intros c id []|]. destruct (IHl (fun c Hc => Hl c (or_intror Hc))) as (n1 & H1). destruct (IHk c (Hl c (or_introl eq_refl))) as (n2 & H2).
        exists (n1 + n2)%nat. intros c2 id [<-|H] R; [specialize (H2 id R)|specialize (H1 c2 id H R)]; lia. }
      assert (Bi : forall ids, exists n, forall id, In id ids -> (rank id < n)%nat).
      { induction ids as [|i ids (n1 & H1)]; [exists 0%nat; intros id []|]. exists (S (rank i) + n1)%nat. intros id [<-|H]; [lia|]. specialize (H1 id H). lia. }
      destruct (Bl (a_dirs a)) as (n1 & H1). { intros c Hc. pose proof (sz_child a c Hc). lia. }
      destruct (Bi (a_ind a)) as (n2 & H2). exists (n1 + n2)%nat. intros id R. destruct R as [a id Hi|a c id Hc R]; [specialize (H2 id Hi)|specialize (H1 c id Hc R)]; lia. }
    exact (B0 (sz root) root (le_n _)). }
  destruct B as (n & B). exact (G n root B []).
Qed.
Theorem C59_unique : forall store p root es ok es2 ok2, walk_dir store p root es ok -> walk_dir store p root es2 ok2 -> es2 = es /\ ok2 = ok.
Proof.
  intros store. assert (U : (forall p items es ok, walk_items store p items es ok -> forall es2 ok2, walk_items store p items es2 ok2 -> es2 = es /\ ok2 = ok) /\
    (forall p ids es ok, walk_lists store p ids es ok -> forall es2 ok2, walk_lists store p ids es2 ok2 -> es2 = es /\ ok2 = ok) /\
    (forall p d es ok, walk_dir store p d es ok -> forall es2 ok2, walk_dir store p d es2 ok2 -> es2 = es /\ ok2 = ok)).
  { apply (walk_mut store (fun p items es ok _ => forall es2 ok2, walk_items store p items es2 ok2 -> es2 = es /\ ok2 = ok) (fun p ids es ok _ => forall es2 ok2, walk_lists store p ids es2 ok2 -> es2 = es /\ ok2 = ok) (fun p d es ok _ => forall es2 ok2, walk_dir store p d es2 ok2 -> es2 = es /\ ok2 = ok)).
    - intros p es2 ok2 W. inversion W; subst. auto.
    - intros p a l es ok T _ IH es2 ok2 W. inversion W; subst; try congruence. match goal with H : walk_items _ _ _ _ _ |- _ => destruct (IH _ _ H) as (-> & ->) end. auto.
    - intros p a l e1 e2 ok T _ IH1 _ IH2 es2 ok2 W. inversion W; subst; try congruence.
      + match goal with H : walk_dir _ _ _ _ _ |- _ => destruct (IH1 _ _ H) as (-> & _) end. match goal with H : walk_items _ _ _ _ _ |- _ => destruct (IH2 _ _ H) as (-> & ->) end. auto.
      + match goal with H : walk_dir _ _ _ _ _ |- _ => destruct (IH1 _ _ H) as (_ & X) end. discriminate.
    - intros p a l e T _ IH es2 ok2 W. inversion W; subst; try congruence; match goal with H : walk_dir _ _ _ _ _ |- _ => destruct (IH _ _ H) as (X & Y) end; [discriminate|subst; auto].
    - intros p es2 ok2 W. inversion W; subst. auto.
    - intros p id r Sn es2 ok2 W. inversion W; subst; try congruence. auto.
    - intros p id r l e Sn _ IH es2 ok2 W. inversion W; subst; try congruence; match goal with S1 : store id = Some l, S2 : store id = Some ?k |- _ => assert (k = l) by congruence; subst k end; match goal with H : walk_items _ _ _ _ _ |- _ => destruct (IH _ _ H) as (X & Y) end; [subst; auto|discriminate].
    - intros p id r l e1 e2 ok Sn _ IH1 _ IH2 es2 ok2 W. inversion W; subst; try congruence; match goal with S1 : store id = Some l, S2 : store id = Some ?k |- _ => assert (k = l) by congruence; subst k end; match goal with H : walk_items _ _ _ _ _ |- _ => destruct (IH1 _ _ H) as (X & Y) end; [discriminate|].
      match goal with H : walk_lists _ _ _ _ _ |- _ => destruct (IH2 _ _ H) as (-> & ->) end. subst. auto.
    - intros p d e _ IH es2 ok2 W. inversion W; subst; match goal with H : walk_items _ _ _ _ _ |- _ => destruct (IH _ _ H) as (X & Y) end; [subst; auto|discriminate].
    - intros p d e1 e2 ok _ IH1 _ IH2 es2 ok2 W. inversion W; subst; match goal with H : walk_items _ _ _ _ _ |- _ => destruct (IH1 _ _ H) as (X & Y) end; [discriminate|].
      match goal with H : walk_lists _ _ _ _ _ |- _ => destruct (IH2 _ _ H) as (-> & ->) end. subst. auto. }
  intros p root es ok es2 ok2 A B. destruct U as (_ & _ & U). exact (U _ _ _ _ A _ _ B).
Qed.

(** ** Example: files a and d/x directly, e/y and e/f (a directory) in a list, one unreadable list at the end;
    the allocator reuses freed addresses. *)
Definition inf (t : atype) : info := mkinfo t 0 0 (ModelAsset.mkfp 0 [] []) [] false.
Definition ex_fx := Asset [120]%N (inf TFile) [] [].
Definition ex_fy := Asset [121]%N (inf TFile) [] [].
Definition ex_d := Asset [100]%N (inf TDir) [ex_fx] [].
Definition ex_f := Asset [102]%N (inf TDir) [] [].
Definition ex_e := Asset [101]%N (inf TDir) [] [[2]%N].
Definition ex_root := Asset [] (inf TDir) [ex_d; ex_fx] [[1]; [3]]%N.
Definition ex_store (id : cid) : option (list asset) :=
  match id with [1%N] => Some [ex_e; ex_fy] | [2%N] => Some [ex_fy; ex_f] | _ => None end.
Definition ex_alloc (_ : nat) (live : list N) : N := (1 + fold_right N.max 0 live)%N.
Lemma ex_alloc_fresh : forall k live, ~ In (ex_alloc k live) live.
Proof.
  intros k live H. unfold ex_alloc in H. assert (X : forall x, In x live -> (x <= fold_right N.max 0 live)%N) by (clear; induction live as [|y l IH]; intros x Hx; [destruct Hx|]; cbn; destruct Hx as [-> |Hx]; [lia|specialize (IH _ Hx); lia]). specialize (X _ H). lia.
Qed.
Definition ex_es : list (list str * asset) :=
  [([], ex_d); ([[100]%N], ex_fx); ([], ex_fx); ([], ex_e); ([[101]%N], ex_fy); ([[101]%N], ex_f); ([], ex_fy)].
Example C59_example : walk_dir ex_store [] ex_root ex_es false /\ acyclic ex_store /\ (forall p a, In (p, a) ex_es -> a_type a = TDir -> proper_name (a_name a)) /\
  exists s, calls ex_store ex_alloc 10 9 (opened ex_alloc ex_root) = Ok ([Some ([], ex_d); Some ([100]%N, ex_fx); Some ([], ex_fx); Some ([], ex_e); Some ([101]%N, ex_fy); Some ([101]%N, ex_f); Some ([], ex_fy); None; None], s) /\ s_ok s = false.
Proof.
  split; [|split; [|split]].
  - unfold ex_es. change ([([], ex_d); ([[100]%N], ex_fx); ([], ex_fx); ([], ex_e); ([[101]%N], ex_fy); ([[101]%N], ex_f); ([], ex_fy)] : list (list str * asset)) with ([([], ex_d); ([[100]%N], ex_fx); ([], ex_fx)] ++ ([([], ex_e); ([[101]%N], ex_fy); ([[101]%N], ex_f); ([], ex_fy)] ++ []) : list (list str * asset)).
    apply wd_ok.
    + apply (wi_dir ex_store [] ex_d [ex_fx] [([[100]%N], ex_fx)] [([], ex_fx)] true); [reflexivity| |].
      * apply (wd_ok ex_store [[100]%N] ex_d [([[100]%N], ex_fx)] [] true); [apply wi_other; [discriminate|constructor]|constructor].
      * apply wi_other; [discriminate|constructor].
    + eapply wl_cons; [reflexivity| |apply wl_none; reflexivity].
      apply (wi_dir ex_store [] ex_e [ex_fy] [([[101]%N], ex_fy); ([[101]%N], ex_f)] [([], ex_fy)] true); [reflexivity| |].
      * apply (wd_ok ex_store [[101]%N] ex_e [] [([[101]%N], ex_fy); ([[101]%N], ex_f)] true); [constructor|].
        change ([([[101]%N], ex_fy); ([[101]%N], ex_f)] : list (list str * asset)) with ([([[101]%N], ex_fy); ([[101]%N], ex_f)] ++ [] : list (list str * asset)). eapply wl_cons; [reflexivity| |constructor].
        apply wi_other; [discriminate|]. apply (wi_dir ex_store [[101]%N] ex_f [] [] [] true); [reflexivity| |constructor]. apply (wd_ok ex_store _ ex_f [] [] true); constructor.
      * apply wi_other; [discriminate|constructor].
  - exists (fun id => match id with [1%N] => 5%nat | [2%N] => 4%nat | _ => 0%nat end). intros id l a id2 E Ha R.
    assert (X : (l = [ex_e; ex_fy] /\ id = [1%N]) \/ (l = [ex_fy; ex_f] /\ id = [2%N])).
    { unfold ex_store in E. destruct id as [|[|[x|x|]] [|]]; try discriminate; try (destruct x; discriminate); [destruct x; try discriminate; inversion E; auto|inversion E; auto]. }
    assert (Rx : forall n i id, ~ refers (Asset n i [] []) id) by (intros n i id0 R0; inversion R0; subst; match goal with H : In _ _ |- _ => exact H end).
    destruct X as [(-> & ->)|(-> & ->)]; cbn in Ha; destruct Ha as [<-|[<-|[]]]; try (exfalso; eapply Rx; exact R).
    remember ex_e as z eqn:Ez. destruct R as [z id3 H|z c id3 H _]; rewrite Ez in H; cbn in H; [destruct H as [<-|[]]; lia|destruct H].
  - intros p a H T. cbn in H. destruct H as [H|[H|[H|[H|[H|[H|[H|H]]]]]]]; [..|destruct H]; inversion H; subst; try discriminate T; (split; [discriminate|]; cbn; split; intros [X|[]]; discriminate).
  - assert (X : match calls ex_store ex_alloc 10 9 (opened ex_alloc ex_root) with Ok (l, s) => l = [Some ([], ex_d); Some ([100]%N, ex_fx); Some ([], ex_fx); Some ([], ex_e); Some ([101]%N, ex_fy); Some ([101]%N, ex_f); Some ([], ex_fy); None; None] /\ s_ok s = false | _ => False end) by (vm_compute; split; reflexivity).
    destruct (calls ex_store ex_alloc 10 9 (opened ex_alloc ex_root)) as [(l, s)| | |]; try contradiction. destruct X as (-> & X). exists s. auto.
Qed.
