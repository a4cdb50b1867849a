(** C52: the manifest follows the source directory (cdc_stream/multi_session.cc). *)
From Verif Require Import Base ListX Str ModelText ModelPath SpecPath ModelCdc ModelChunkMap ModelProvider ModelAsset SpecAsset
  ModelManifest SpecManifest ProofManifest ModelUpdater SpecUpdater ProofUpdater PropUpdater SpecWatch ModelWatch ProofIncr SpecMerge PropMerge SpecRunner
  ProofIncrRun PropIncr PropIncrEx ModelRunner ProofRunner.
From Coq Require Import Permutation.
Local Open Scope N_scope.

Section C52.
Context (store : cid -> option (list asset)) (truth : cid -> option bytes) (clists : cid -> option (list cref)) (store_root : cid -> option asset)
  (put : list asset -> option cid) (put_chunks : list cref -> option cid) (put_root : asset -> option cid)
  (sort_desc : list asset -> list asset) (max_size : N).
(** The data store returns what was put into it. *)
Context (Hput : forall l id, put l = Some id -> store id = Some l) (Hputc : forall l id, put_chunks l = Some id -> clists id = Some l)
  (Hputr : forall r id, put_root r = Some id -> store_root id = Some r) (Hsortd : forall l, Permutation l (sort_desc l)).
Context (sort : list ainfo -> list ainfo) (push : bool) (max_queued : nat) (mpt : Z).
Notation wstep := (wstep store truth clists store_root put put_chunks put_root sort_desc max_size sort push max_queued mpt).
Notation wsteps := (wsteps store truth clists store_root put put_chunks put_root sort_desc max_size sort push max_queued mpt).
Notation own_steps := (own_steps store truth clists store_root put put_chunks put_root sort_desc max_size sort push max_queued mpt).
Notation right_in src b q := (entry_matches truth clists (bview store 0 b q) (src q)).

(** The start: UpdateAll has stored a manifest that matches the source (C30), except for
    files that it could not read; nothing has changed since. *)
Record starts (w : world) : Prop := {
  st_map : w_map w = [];
  st_idle : w_due w = false /\ w_changed w = false /\ w_update w = None /\ w_os w = [] /\ w_seen w = [];
  st_source : source_tree (w_base w);
  st_root : b_root (w_man w) <> None;
  st_tidy : btidy store 0 (w_man w);
  st_store : in_store store (b_lists (w_man w)) (root_of 0 (w_man w));
  st_finished : forall q i, bview store 0 (w_man w) q = Some i -> i_progress i = false;
  st_match : forall q, q <> [] -> right_in (w_base w) (w_man w) q \/ w_lost w q }.

Definition file_at (src : path -> option snode) (q : path) : Prop := exists mt c, src q = Some (SFile mt c).
Record winv (w : world) : Prop := {
  wi_source : source_tree (w_base w);
  wi_valid : valid (w_base w) (w_seen w ++ w_os w);
  wi_map : w_map w = process [] (map c_note (w_seen w));
  wi_wake : w_seen w <> [] -> w_due w = true \/ w_changed w = true;
  wi_root : b_root (w_man w) <> None;
  wi_tidy : btidy store 0 (w_man w);
  wi_store : in_store store (b_lists (w_man w)) (root_of 0 (w_man w));
  wi_finished : forall q i, bview store 0 (w_man w) q = Some i -> i_progress i = false;
  wi_ops : forall ops, w_update w = Some ops -> true_of (w_base w) ops;
  wi_all : forall q, q <> [] -> right_in (w_base w) (w_man w) q \/ w_lost w q \/ (pending w q /\ file_at (w_base w) q) \/
             (exists ops, w_update w = Some ops /\ told (w_base w) ops q) }.

Lemma winv_start w : starts w -> winv w.
Proof.
  intros [A (B & C & D & E & F) G H I J K L]. constructor; auto.
  - rewrite E, F. apply valid_nil.
  - rewrite A, F. reflexivity.
  - intros ops X. rewrite D in X. discriminate.
  - intros q N. destruct (L q N); auto.
Qed.

Lemma not_file src b q chunk : ~ file_at src q -> right_in src b q \/ True -> reads_file truth clists src chunk q.
Proof. intros N _ mt c r E. elim N. exists mt, c. exact E. Qed.
Lemma file_dec src q : file_at src q \/ ~ file_at src q.
Proof. destruct (src q) as [[mt|mt c]|] eqn:E; [right|left; exists mt, c; exact E|right]; intros (x & y & F); congruence. Qed.

Lemma default_good b2 : default_manifest store store_root put put_chunks put_root sort_desc max_size b2 ->
  b_root b2 <> None /\ btidy store 0 b2 /\ in_store store (b_lists b2) (root_of 0 b2) /\
  (forall q i, bview store 0 b2 q = Some i -> i_progress i = false) /\ (forall q, q <> [] -> bview store 0 b2 q = None).
Proof.
  intros (now & fuel & id & b' & log & F & Sep & L). set (x := root_of now (mkb None (fun _ => None))) in *.
  assert (Px : plain x) by (cbn; repeat split; constructor). destruct (plain_good store x Px eq_refl) as (T & S).
  destruct (flush_loaded store truth clists store_root put put_chunks put_root sort_desc max_size Hput Hputc Hputr Hsortd now fuel (mkb (Some x) (fun _ => None)) id b' log F Sep) as (b3 & L3 & R & _ & T3 & S3 & Sm); auto; [discriminate|].
  rewrite L in L3. inversion L3; subst b3. split; [exact R|]. split; [exact T3|]. split; [exact S3|].
  assert (Fx : finished x) by (cbn; auto).
  split.
  - intros q j V. pose proof (Sm q) as Sq. rewrite V in Sq. destruct (bview store 0 (mkb (Some x) (fun _ => None)) q) as [i|] eqn:Vi; [|destruct Sq]. destruct Sq as (_ & _ & _ & _ & S5 & _).
    pose proof (finished_view store x Px Fx q i Vi). congruence.
  - intros q N. pose proof (Sm q) as Sq. assert (V : bview store 0 (mkb (Some x) (fun _ => None)) q = None) by (destruct q; [contradiction|reflexivity]).
    rewrite V in Sq. destruct (bview store 0 b2 q); [destruct Sq|reflexivity].
Qed.

Lemma winv_step k w w' : winv w -> wstep k w w' -> winv w'.
Proof.
  intros [S V M Wk R T St Fi Op Al] H.
  destruct H as [w c Hc|w a r Hd Eo Na|w Hd|w ops lost Hc Hu P Hl1 Hl2|w ops chunk b2 lost Hu Up Hl1 Hl2|w ops b2 lost Hu Df Hl]; cbn [w_map w_due w_changed w_update w_man w_lost w_os w_seen w_base] in *.
  - constructor; cbn; auto.
    + rewrite app_assoc. apply valid_snoc; [exact V|exact Hc].
    + intros q Nq. destruct (Al q Nq) as [X|[X|[(X & Y)|X]]]; auto. right. right. left. split; [|exact Y]. unfold pending in *. cbn. rewrite app_assoc, map_app, in_app_iff. now left.
  - assert (E : (w_seen w ++ a) ++ r = w_seen w ++ w_os w) by (rewrite Eo; now rewrite app_assoc).
    constructor; cbn; auto.
    + rewrite E. exact V.
    + rewrite M. unfold process. now rewrite map_app, fold_left_app.
    + intros q Nq. unfold pending. cbn. rewrite E. exact (Al q Nq).
  - constructor; cbn; auto.
  - apply valid_app in V. destruct V as (V1 & V2). rewrite M in P.
    assert (U : forall ops', (match w_map w with [] => None | _ => Some ops end) = Some ops' -> ops' = ops) by (destruct (w_map w); intros ops' E; congruence).
    constructor; cbn [w_map w_due w_changed w_update w_man w_lost w_os w_seen w_base]; auto.
    + apply valid_tree; auto.
    + intros ops' E. apply U in E. subst ops'. eapply picked_true; eassumption.
    + intros q Nq. destruct (in_dec (list_eq_dec (list_eq_dec N.eq_dec)) q (map c_path (w_seen w))) as [I|I].
      * assert (Dec : w_base w q = None \/ (w_base w q <> None /\ (2 <= removals (wstr q) (map c_note (w_seen w)))%nat) \/ (removals (wstr q) (map c_note (w_seen w)) <= 1)%nat).
        { destruct (w_base w q); [|now left]. right. destruct (Nat.le_gt_cases (removals (wstr q) (map c_note (w_seen w))) 1); [now right|left; split; [discriminate|lia]]. }
        destruct Dec as [D|[(D1 & D2)|D]].
        -- destruct (picked_told _ _ _ q S V1 P I (or_introl D)) as [(X & Y)|X].
           ++ destruct (Al q Nq) as [Z|[Z|[(_ & (mt & c & Z))|(o & Z & _)]]]; [left; rewrite X in Z; rewrite Y; exact Z|auto|congruence|congruence].
           ++ right. right. right. exists ops. split; [|exact X]. destruct (w_map w) eqn:Em; [|reflexivity]. exfalso. rewrite <- M in P. apply Permutation_sym, Permutation_nil in P. subst ops.
              destruct X as [(o & [] & _)|(_ & o & p & [] & _)].
        -- right. left. auto.
        -- destruct (picked_told _ _ _ q S V1 P I (or_intror D)) as [(X & Y)|X].
           ++ destruct (Al q Nq) as [Z|[Z|[(_ & (mt & c & Z))|(o & Z & _)]]]; [left; rewrite X in Z; rewrite Y; exact Z|auto|congruence|congruence].
           ++ right. right. right. exists ops. split; [|exact X]. destruct (w_map w) eqn:Em; [|reflexivity]. exfalso. rewrite <- M in P. apply Permutation_sym, Permutation_nil in P. subst ops.
              destruct X as [(o & [] & _)|(_ & o & p & [] & _)].
      * unfold file_at. rewrite (apply_other _ _ q I). destruct (Al q Nq) as [Z|[Z|[(Z & Y)|(o & Z & _)]]]; [auto|auto| |congruence].
        right. right. left. split; [|exact Y]. unfold pending in *. cbn. rewrite map_app, in_app_iff in Z. tauto.
  - destruct Up as (search & fc & m0 & m & now & fuel & id & b' & log & Hs & Hm & Ld & F & Sep & L).
    destruct (C50_incremental_update store truth clists store_root put put_chunks put_root sort_desc max_size Hput Hputc Hputr Hsortd sort (w_base w) S search chunk
      push max_queued mpt ops (w_man w) fc m0 m now fuel id b' log (Op ops Hu) R T St Fi Hs Hm Ld F Sep) as (b3 & L3 & R3 & T3 & S3 & A3 & F3 & _).
    rewrite L in L3. inversion L3; subst b3.
    constructor; cbn [w_map w_due w_changed w_update w_man w_lost w_os w_seen w_base]; auto; [discriminate|].
    intros q Nq. unfold pending. cbn [w_seen w_os]. fold (pending w q).
    assert (Do : right_in (w_base w) (w_man w) q \/ told (w_base w) ops q -> right_in (w_base w) b2 q \/ lost q \/ (pending w q /\ file_at (w_base w) q) \/ (exists o, @None (list operation) = Some o /\ told (w_base w) o q)).
    { intros X. destruct (in_dec (list_eq_dec (list_eq_dec N.eq_dec)) q (map c_path (w_seen w ++ w_os w))) as [I|I].
      - destruct (file_dec (w_base w) q) as [D|D]; [right; right; left; split; assumption|]. left. apply A3; [exact X|]. apply (not_file (w_base w) b2); auto.
      - destruct (Hl2 q I) as [Y|Y]; [left; now apply A3|auto]. }
    destruct (Al q Nq) as [Z|[Z|[Z|(o & Z & Y)]]]; auto.
    + destruct (Hl1 q Z); auto.
    + rewrite Hu in Z. inversion Z; subst o. auto.
  - destruct (default_good b2 Df) as (R2 & T2 & S2 & F2 & N2).
    constructor; cbn [w_map w_due w_changed w_update w_man w_lost w_os w_seen w_base]; auto; [discriminate|].
    intros q Nq. rewrite (N2 q Nq). destruct (w_base w q) eqn:E; [right; left; apply Hl; congruence|left; exact I].
Qed.
Lemma winv_run w w' : winv w -> wsteps w w' -> winv w'.
Proof. intros I H. induction H as [|k w w1 w2 H IH Sp]; [exact I|]. exact (winv_step k w1 w2 (IH I) Sp). Qed.

(** In every state, whatever has changed and whatever steps have been taken: a path
    whose entry in the stored manifest is not right has a change that was not picked up
    yet, or is told by the operations with which Update is running, or was lost. *)
Theorem C52_only_pending_wrong : forall w0 w, starts w0 -> wsteps w0 w -> forall q, q <> [] ->
  right_in (w_src w) (w_man w) q \/ pending w q \/ (exists ops, w_update w = Some ops /\ told (w_base w) ops q) \/ w_lost w q.
Proof.
  intros w0 w St H q Nq. apply winv_start in St. destruct (winv_run _ _ St H) as [S V M Wk R T Sr Fi Op Al].
  destruct (in_dec (list_eq_dec (list_eq_dec N.eq_dec)) q (map c_path (w_seen w ++ w_os w))) as [I|I]; [right; left; exact I|].
  destruct (Al q Nq) as [X|[X|[(X & _)|X]]]; auto. left. unfold w_src. now rewrite apply_other.
Qed.

(** When everything has been handled, the stored manifest matches the source directory,
    except for lost changes (the time of the root, which the watcher does not report,
    is not claimed), and no entry is in progress. *)
Theorem C52_settled : forall w0 w, starts w0 -> wsteps w0 w -> settled w ->
  (forall q, q <> [] -> right_in (w_src w) (w_man w) q \/ w_lost w q) /\
  (forall q i, bview store 0 (w_man w) q = Some i -> i_progress i = false).
Proof.
  intros w0 w St H (A & B & C & D). apply winv_start in St. pose proof (winv_run _ _ St H) as [S V M Wk R T Sr Fi Op Al]. split; [|exact Fi].
  assert (E : w_seen w = []). { destruct (w_seen w); [reflexivity|]. destruct Wk; congruence. }
  intros q Nq. unfold w_src. rewrite A, E. cbn. destruct (Al q Nq) as [X|[X|[(X & _)|(o & X & _)]]]; auto; [|congruence]. unfold pending in X. rewrite A, E in X. destruct X.
Qed.

(** No wake-up is lost: collected changes will be picked up. *)
Theorem C52_no_lost_wakeup : forall w0 w, starts w0 -> wsteps w0 w -> w_map w <> [] -> w_due w = true \/ w_changed w = true.
Proof.
  intros w0 w St H N. apply winv_start in St. destruct (winv_run _ _ St H) as [S V M Wk R T Sr Fi Op Al]. apply Wk. intros E. rewrite E in M. contradiction.
Qed.

(** If the user makes no more changes, the program can go on until everything has been
    handled -- unless Update is running, which returns (C50_never_hangs, C31) -- and
    there is a bound on the number of its steps. *)
Theorem C52_can_go_on : forall w, ~ settled w -> w_update w = None -> exists w', wstep true w w'.
Proof.
  intros w N U. destruct (w_due w) eqn:D; [eexists; eapply W_callback; exact D|].
  destruct (w_os w) as [|c r] eqn:O.
  - destruct (w_changed w) eqn:C; [|elim N; repeat split; assumption].
    eexists. eapply (W_pick _ _ _ _ _ _ _ _ _ _ _ _ _ w _ (fun _ => True)); [exact C|exact U|reflexivity|auto|auto].
  - eexists. eapply (W_merge _ _ _ _ _ _ _ _ _ _ _ _ _ w [c] r); [exact D|exact O|discriminate].
Qed.
Definition measure (w : world) : nat :=
  (8 * length (w_os w) + (if w_due w then 4 else 0) + (if w_changed w then 2 else 0) + (if w_update w then 1 else 0))%nat.
Theorem C52_settles : forall n w w', own_steps n w w' -> (n <= 8 * length (w_os w) + 7)%nat.
Proof.
  intros n w w' H. assert (X : (n + measure w' <= measure w)%nat).
  { induction H as [|n w w1 w2 H IH Sp]; [lia|]. enough (measure w2 < measure w1)%nat by lia. clear - Sp. remember true as k eqn:Ek.
    destruct Sp as [w c Hc|w a r Hd Eo Na|w Hd|w ops lost Hc Hu P Hl1 Hl2|w ops chunk b2 lost Hu Up Hl1 Hl2|w ops b2 lost Hu Df Hl]; [discriminate| | | | |]; unfold measure; cbn [w_os w_due w_changed w_update].
    - rewrite Hd, Eo, app_length. destruct a; [contradiction|]. cbn [length]. lia.
    - rewrite Hd. destruct (w_changed w); lia.
    - rewrite Hc, Hu. destruct (w_map w); lia.
    - rewrite Hu. lia.
    - rewrite Hu. lia. }
  unfold measure in X. destruct (w_due w), (w_changed w), (w_update w); lia.
Qed.
End C52.
