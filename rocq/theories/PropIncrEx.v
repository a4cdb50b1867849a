(** C50: a run that meets the hypotheses, and changes that the operations do not tell. *)
From Verif Require Import Base ListX Str ModelText ModelPath SpecPath ModelCdc ModelChunkMap ModelProvider ModelAsset SpecAsset
  ModelManifest SpecManifest ModelUpdater SpecUpdater PropUpdater SpecWatch ModelWatch PropIncr.
From Coq Require Import Permutation.
Local Open Scope N_scope.

(** * f is modified, d\g deleted, d\h added; the time of d changes *)
Definition inc_file (mt : N) (id : cid) (n : N) : info := mkinfo TFile mt 420 (mkfp n [mkref 0 id] []) [] false.
Definition inc_old : asset :=
  Asset [] (ex_dir [] 5) [Asset [100] (ex_dir [100] 6) [Asset [103] (inc_file 3 [5] 2) [] []] []; Asset [102] (inc_file 7 [5] 2) [] []] [].
Definition inc_new : asset :=
  Asset [] (ex_dir [] 5) [Asset [100] (ex_dir [100] 9) [Asset [104] (inc_file 4 [5] 2) [] []] []; Asset [102] (inc_file 8 [6] 1) [] []] [].
Definition inc_ops : list operation :=
  [(KUpdate, mkai [102] TFile 8 1 []); (KDelete, mkai [100; 92; 103] TFile 3 0 []); (KAdd, mkai [100; 92; 104] TFile 4 2 []); (KUpdate, mkai [100] TDir 9 0 [])].
Definition inc_src (p : path) : option snode :=
  match p with
  | [] => Some (SDir 5) | [[100]] => Some (SDir 9) | [[100]; [104]] => Some (SFile 4 [1; 2]) | [[102]] => Some (SFile 8 [3]) | _ => None
  end.
Definition inc_chunk (s : bytes) (r : option chunked) : Prop :=
  r = match s with [102] => Some (mkchunked 1 [mkref 0 [6]] false) | [100; 47; 104] => Some (mkchunked 2 [mkref 0 [5]] false) | _ => None end.
Definition inc_truth (id : cid) : option bytes := match id with [5] => Some [1; 2] | [6] => Some [3] | _ => None end.
Definition one_root (x : asset) (r : asset) : option cid := if asset_dec r x then Some [9] else None.
Definition one_store (x : asset) (id : cid) : option asset := match id with [9] => Some x | _ => None end.
Lemma one_put x r id : one_root x r = Some id -> one_store x id = Some r.
Proof. unfold one_root. destruct (asset_dec r x) as [->|]; [|discriminate]. intros H. inversion H. reflexivity. Qed.
Definition one_fl (x : asset) := flushing ex_none ex_none ex_none (one_root x) (fun l => l) 0.
Definition old_b : builder := mkb (Some inc_old) (fun _ => None).

Example C50_example_run : exists m0 m b' log,
  start ex_none (one_fl inc_new) false inc_ops false old_b fcmap_init m0 /\
  msteps ex_none ex_none ex_sort ex_search inc_chunk (one_fl inc_new) false 1 0%Z m0 m /\ loop_done m /\
  flush ex_none 1 ex_none ex_none (one_root inc_new) (fun l => l) 0 3 (u_b (m_u m)) = Ok ([9], b', log) /\
  separate ex_none (b_lists (u_b (m_u m))) (root_of 1 (u_b (m_u m))) log.
Proof.
  eexists _, _, _, _. split; [eapply (Start_no_flush _ _ _ _ _ _ _ 1 _ true); [run_task|now left]|]. split.
  { tidy_state. eapply msteps_cons.
    { eapply (M_queue _ _ _ _ _ _ _ _ _ _ _ _ _ false false []); [reflexivity|left; discriminate|split; [auto|discriminate]|reflexivity|reflexivity|].
      eapply QT_file; [run_task|reflexivity|]. apply QT_stop. right. cbn. lia. }
    tidy_state. eapply msteps_cons. { eapply (M_file _ _ _ _ _ _ _ _ _ _ 1 []); [reflexivity|reflexivity|reflexivity|run_task]. }
    tidy_state. eapply msteps_cons.
    { eapply (M_queue _ _ _ _ _ _ _ _ _ _ _ _ _ false false []); [reflexivity|left; discriminate|split; [auto|discriminate]|reflexivity|reflexivity|].
      eapply QT_file; [run_task|reflexivity|]. apply QT_stop. left. reflexivity. }
    tidy_state. eapply msteps_cons. { eapply (M_file _ _ _ _ _ _ _ _ _ _ 1 []); [reflexivity|reflexivity|reflexivity|run_task]. }
    tidy_state. apply msteps_refl. }
  split; [repeat split|]. split; [run_task|]. constructor; intros; contradiction.
Qed.

Lemma inc_src_paths p : inc_src p <> None -> p = [] \/ p = [[100]] \/ p = [[100]; [104]] \/ p = [[102]].
Proof. unfold inc_src. intros H. repeat (match type of H with match ?x with _ => _ end <> _ => destruct x; auto; try (now elim H) end). Qed.
Ltac good := repeat constructor; try discriminate; cbn; intuition discriminate.
Lemma inc_source : source_tree inc_src.
Proof.
  constructor.
  - exists 5. reflexivity.
  - intros p H. apply inc_src_paths in H. destruct H as [->|[->|[->| ->]]]; good.
  - intros p n H. apply inc_src_paths in H. destruct H as [H|[H|[H|H]]]; [destruct p; discriminate| | |];
      (apply (f_equal (@removelast bytes)) in H; rewrite removelast_last in H; subst p; eexists; reflexivity).
Qed.
Lemma inc_true : true_of inc_src inc_ops.
Proof.
  constructor; [cbn; repeat constructor; cbn; intuition discriminate|].
  intros o [<-|[<-|[<-|[<-|[]]]]].
  - exists [[102]]. split; [split; [discriminate|split; [good|reflexivity]]|cbn; auto].
  - exists [[100]; [103]]. split; [split; [discriminate|split; [good|reflexivity]]|cbn; auto].
  - exists [[100]; [104]]. split; [split; [discriminate|split; [good|reflexivity]]|cbn; auto].
  - exists [[100]]. split; [split; [discriminate|split; [good|reflexivity]]|cbn; auto].
Qed.

(** Trees without indirect lists. *)
Fixpoint plain (a : asset) : Prop := let '(Asset _ i ds ids) := a in ids = [] /\ NoDup (map a_name ds) /\ (fix go l := match l with [] => True | d :: r => plain d /\ go r end) ds.
Lemma plain_sub n i ds ids d : plain (Asset n i ds ids) -> In d ds -> plain d.
Proof. cbn. intros (_ & _ & G). revert G. induction ds as [|x ds IH]; intros G []; destruct G as (A & B); [congruence|auto]. Qed.
Lemma plain_node store L : forall p a d, plain a -> node store L a p = Some d -> plain d.
Proof.
  induction p as [|n p IH]; intros a d Pa N; cbn in N; [congruence|]. destruct (type_eqb (a_type a) TDir); [|discriminate].
  destruct (find _ (children store L a)) as [c|] eqn:F; [|discriminate]. apply find_some in F. destruct F as (I & _). apply (IH c d); [|exact N].
  destruct a as [na ia ds ids]. pose proof Pa as (E & _). cbn in E. subst ids. unfold children in I. cbn in I. rewrite app_nil_r in I. eapply plain_sub; eassumption.
Qed.
Lemma plain_good store x : plain x -> a_type x = TDir -> btidy store 0 (mkb (Some x) (fun _ => None)) /\ in_store store (fun _ => None) x.
Proof.
  intros P T. split.
  - split; [exact T|]. cbn [root_of b_root b_lists]. constructor.
    + intros p b N _. apply (plain_node _ _ _ _ _ P) in N. destruct b as [n i ds ids]. destruct N as (E & N & _). subst ids. unfold children. cbn. rewrite app_nil_r. exact N.
    + intros p b N _. apply (plain_node _ _ _ _ _ P) in N. destruct b as [n i ds ids]. destruct N as (-> & _). constructor.
    + intros p q b c id N _ _ _ I _. apply (plain_node _ _ _ _ _ P) in N. destruct b as [n i ds ids]. destruct N as (-> & _). destruct I.
    + intros p b id c r d id' N _ I. apply (plain_node _ _ _ _ _ P) in N. destruct b as [n i ds ids]. destruct N as (-> & _). destruct I.
  - intros p b id N _ I. apply (plain_node _ _ _ _ _ P) in N. destruct b as [n i ds ids]. destruct N as (-> & _). destruct I.
Qed.
(** The entries of a tree without indirect lists. *)
Fixpoint finished (a : asset) : Prop := let '(Asset _ i ds ids) := a in i_progress i = false /\ (fix go l := match l with [] => True | d :: r => finished d /\ go r end) ds.
Lemma finished_node store L : forall p a d, plain a -> finished a -> node store L a p = Some d -> i_progress (a_info d) = false.
Proof.
  induction p as [|n p IH]; intros a d Pa Fa N; cbn in N.
  { inversion N; subst. destruct d as [n i ds ids]. apply Fa. }
  destruct (type_eqb (a_type a) TDir); [|discriminate].
  destruct (find _ (children store L a)) as [c|] eqn:F; [|discriminate]. apply find_some in F. destruct F as (I & _).
  destruct a as [na ia ds ids]. pose proof Pa as (E & _). cbn in E. subst ids. unfold children in I. cbn in I. rewrite app_nil_r in I.
  apply (IH c d); [eapply plain_sub; eassumption| |exact N]. destruct Fa as (_ & G). clear - G I. induction ds as [|x ds IH]; [destruct I|]. destruct G as (A & B), I as [->|I]; auto.
Qed.
Lemma finished_view store x : plain x -> finished x -> forall q i, bview store 0 (mkb (Some x) (fun _ => None)) q = Some i -> i_progress i = false.
Proof. intros P F q i V. unfold bview, view in V. cbn [root_of b_root b_lists] in V. destruct (node _ _ x q) as [d|] eqn:N; [|discriminate]. inversion V; subst. eapply finished_node; eassumption. Qed.

Lemma old_good : btidy ex_none 0 old_b /\ in_store ex_none (b_lists old_b) (root_of 0 old_b) /\ (forall q i, bview ex_none 0 old_b q = Some i -> i_progress i = false).
Proof.
  assert (P : plain inc_old) by (cbn; repeat split; repeat constructor; cbn; intuition discriminate).
  destruct (plain_good ex_none inc_old P eq_refl) as (A & B). split; [exact A|]. split; [exact B|]. apply finished_view; [exact P|cbn; auto 10].
Qed.

(** All paths are right afterwards. *)
Lemma one_describes truth id c : truth id = Some c -> blen c < 18446744073709551616 -> describes truth ex_none (mkfp (blen c) [mkref 0 id] []) c.
Proof.
  intros T N. exists [c], []. cbn [fp_chunks fp_ind fp_size]. split; [apply (layout_cons truth (mkref 0 id) [] c []); [exact T|constructor]|].
  split; [constructor|]. split; [cbn; now rewrite app_nil_r|]. split; [reflexivity|exact N].
Qed.
Lemma inc_reads q : reads_file inc_truth ex_none inc_src inc_chunk q.
Proof.
  intros mt c r S Ck. assert (H : inc_src q <> None) by congruence. apply inc_src_paths in H. destruct H as [->|[->|[->| ->]]]; inversion S; subst mt c; unfold inc_chunk in Ck; cbn in Ck.
  - exists (mkchunked 2 [mkref 0 [5]] false). split; [exact Ck|]. split; [|reflexivity]. apply (one_describes inc_truth [5] [1; 2]); reflexivity.
  - exists (mkchunked 1 [mkref 0 [6]] false). split; [exact Ck|]. split; [|reflexivity]. apply (one_describes inc_truth [6] [3]); reflexivity.
Qed.
Lemma name_eqb_spec x y : Bool.reflect (x = y) (name_eqb x y).
Proof. unfold name_eqb. destruct (list_eq_dec N.eq_dec x y); now constructor. Qed.
(** The paths that [inc_old] has. *)
Lemma inc_old_paths q : bview ex_none 0 old_b q <> None -> q = [] \/ q = [[100]] \/ q = [[100]; [103]] \/ q = [[102]].
Proof.
  unfold bview, view, old_b. cbn [root_of b_root b_lists]. intros H.
  destruct q as [|n q]; [auto|]. cbn -[name_eqb] in H. destruct (name_eqb_spec [100] n) as [E|_]; cbn -[name_eqb] in H.
  - subst n. destruct q as [|m q]; [auto|]. cbn -[name_eqb] in H. destruct (name_eqb_spec [103] m) as [E|_]; cbn -[name_eqb] in H; [|now elim H].
    subst m. destruct q as [|k q]; [auto|]. cbn -[name_eqb] in H. now elim H.
  - destruct (name_eqb_spec [102] n) as [E|_]; cbn -[name_eqb] in H; [|now elim H]. subst n. destruct q as [|k q]; [auto 6|]. cbn -[name_eqb] in H. now elim H.
Qed.
Lemma inc_all q : entry_matches inc_truth ex_none (bview ex_none 0 old_b q) (inc_src q) \/ told inc_src inc_ops q.
Proof.
  assert (Op : forall k ai P, In (k, ai) inc_ops -> P <> [] -> Forall good_name P -> to_unix (ai_path ai) = pstr P -> names_path (ai_path ai) P) by (intros; split; auto).
  assert (Known : q = [] \/ q = [[100]] \/ q = [[100]; [103]] \/ q = [[102]] \/ q = [[100]; [104]] \/ (bview ex_none 0 old_b q = None /\ inc_src q = None)).
  { destruct (bview ex_none 0 old_b q) eqn:V; [destruct (inc_old_paths q) as [A|[A|[A|A]]]; [congruence|auto..]; auto 8|].
    destruct (inc_src q) eqn:S; [destruct (inc_src_paths q) as [A|[A|[A|A]]]; [congruence|auto..]; auto 8|]. auto 8. }
  destruct Known as [->|[->|[->|[->|[->|(V & S)]]]]].
  - left. cbn. auto.
  - right. left. exists (KUpdate, mkai [100] TDir 9 0 []). split; [cbn; auto|]. split; [auto|]. split; [discriminate|]. split; [good|reflexivity].
  - right. right. split; [reflexivity|]. exists (KDelete, mkai [100; 92; 103] TFile 3 0 []), [[100]; [103]]. split; [cbn; auto|]. split; [split; [discriminate|split; [good|reflexivity]]|]. auto.
  - right. left. exists (KUpdate, mkai [102] TFile 8 1 []). split; [cbn; auto|]. split; [auto|]. split; [discriminate|]. split; [good|reflexivity].
  - right. left. exists (KAdd, mkai [100; 92; 104] TFile 4 2 []). split; [cbn; auto|]. split; [auto|]. split; [discriminate|]. split; [good|reflexivity].
  - left. rewrite V, S. exact I.
Qed.
Example C50_example_result : manifest_matches inc_truth ex_none (bview ex_none 0 (mkb (Some inc_new) (fun _ => None))) inc_src.
Proof.
  destruct C50_example_run as (m0 & m & b' & log & St & Ru & Ld & F & Sep). destruct old_good as (T & S & P).
  destruct (C50_incremental_update ex_none inc_truth ex_none (one_store inc_new) ex_none ex_none (one_root inc_new) (fun l => l) 0
    (fun _ _ X => False_ind _ ltac:(discriminate X)) (fun _ _ X => False_ind _ ltac:(discriminate X)) (one_put inc_new) (fun l => Permutation_refl l) ex_sort inc_src inc_source ex_search inc_chunk
    false 1%nat 0%Z inc_ops old_b fcmap_init m0 m 1 3%nat [9] b' log inc_true ltac:(discriminate) T S P St Ru Ld F Sep) as (b2 & L & _ & _ & _ & M & _).
  inversion L; subst b2. intros q. apply M; [apply inc_all|apply inc_reads].
Qed.

(** * What the operations do not tell *)

(** A directory that is moved into the streamed directory is reported as one added
    directory.  Update does not look into it: its files are missing. *)
Definition mv_old : asset := Asset [] (ex_dir [] 5) [] [].
Definition mv_new : asset := Asset [] (ex_dir [] 5) [Asset [100] (ex_dir [100] 6) [] []] [].
Definition mv_src0 (p : path) : option snode := match p with [] => Some (SDir 5) | _ => None end.
Definition mv_src1 (p : path) : option snode :=
  match p with [] => Some (SDir 5) | [[100]] => Some (SDir 6) | [[100]; [103]] => Some (SFile 3 [1; 2]) | _ => None end.
Definition mv_notes : list notification := [mkn [100] NAdded true 0 6].
Theorem C50_moved_directory_refuted : exists m0 m b' log,
  manifest_matches inc_truth ex_none (bview ex_none 0 (mkb (Some mv_old) (fun _ => None))) mv_src0 /\
  true_of mv_src1 (get_file_operations (process [] mv_notes)) /\
  start ex_none (one_fl mv_new) false (get_file_operations (process [] mv_notes)) false (mkb (Some mv_old) (fun _ => None)) fcmap_init m0 /\
  msteps ex_none ex_none ex_sort ex_search inc_chunk (one_fl mv_new) false 1 0%Z m0 m /\ loop_done m /\ m_failed m = false /\
  flush ex_none 1 ex_none ex_none (one_root mv_new) (fun l => l) 0 3 (u_b (m_u m)) = Ok ([9], b', log) /\
  (forall b2, load_manifest (one_store mv_new) [9] = Some b2 -> bview ex_none 0 b2 [[100]; [103]] = None /\ mv_src1 [[100]; [103]] = Some (SFile 3 [1; 2])).
Proof.
  eexists _, _, _, _. split.
  { intros [|n p]; [cbn; auto|]. cbn. destruct p; exact I. }
  split.
  { constructor; [cbn; repeat constructor; cbn; intuition discriminate|]. intros o [<-|[]]. exists [[100]]. split; [split; [discriminate|split; [good|reflexivity]]|cbn; auto]. }
  split; [eapply (Start_no_flush _ _ _ _ _ _ _ 1 _ true); [run_task|now left]|]. split; [apply msteps_refl|]. split; [repeat split|]. split; [reflexivity|]. split; [run_task|].
  intros b2 L. inversion L; subst b2. split; reflexivity.
Qed.

(** "rename d o, make d": the watcher reports an added directory d; the manifest
    keeps the files that were in the old one, and o has none. *)
Definition rn_old : asset := Asset [] (ex_dir [] 5) [Asset [100] (ex_dir [100] 6) [Asset [103] (inc_file 3 [5] 2) [] []] []] [].
Definition rn_new : asset :=
  Asset [] (ex_dir [] 5) [Asset [100] (ex_dir [100] 8) [Asset [103] (inc_file 3 [5] 2) [] []] []; Asset [111] (ex_dir [111] 6) [] []] [].
Definition rn_src0 (p : path) : option snode :=
  match p with [] => Some (SDir 5) | [[100]] => Some (SDir 6) | [[100]; [103]] => Some (SFile 3 [1; 2]) | _ => None end.
Definition rn_src1 (p : path) : option snode :=
  match p with [] => Some (SDir 5) | [[111]] => Some (SDir 6) | [[111]; [103]] => Some (SFile 3 [1; 2]) | [[100]] => Some (SDir 8) | _ => None end.
Definition rn_notes : list notification := [mkn [100] NOldName true 0 6; mkn [111] NNewName true 0 6; mkn [100] NAdded true 0 8].
Lemma rn_old_view q : bview ex_none 0 (mkb (Some rn_old) (fun _ => None)) q =
  match q with [] => Some (ex_dir [] 5) | [[100]] => Some (ex_dir [100] 6) | [[100]; [103]] => Some (inc_file 3 [5] 2) | _ => None end.
Proof.
  destruct (list_eq_dec (list_eq_dec N.eq_dec) q []) as [->|N0]; [reflexivity|].
  destruct (list_eq_dec (list_eq_dec N.eq_dec) q [[100]]) as [->|N1]; [reflexivity|].
  destruct (list_eq_dec (list_eq_dec N.eq_dec) q [[100]; [103]]) as [->|N2]; [reflexivity|].
  transitivity (@None info).
  - unfold bview, view. cbn [root_of b_root b_lists]. destruct q as [|n q]; [easy|]. cbn -[name_eqb]. destruct (name_eqb_spec [100] n) as [E|_]; [|reflexivity]. subst n.
    destruct q as [|m q]; [easy|]. cbn -[name_eqb]. destruct (name_eqb_spec [103] m) as [E|_]; [|reflexivity]. subst m. destruct q as [|k q]; [easy|]. reflexivity.
  - repeat (match goal with |- _ = match ?x with _ => _ end => destruct x; try reflexivity; try (now elim N0); try (now elim N1); try (now elim N2) end).
Qed.
Theorem C50_replaced_directory_refuted : exists m0 m b' log,
  manifest_matches inc_truth ex_none (bview ex_none 0 (mkb (Some rn_old) (fun _ => None))) rn_src0 /\
  true_of rn_src1 (get_file_operations (process [] rn_notes)) /\
  start ex_none (one_fl rn_new) false (get_file_operations (process [] rn_notes)) false (mkb (Some rn_old) (fun _ => None)) fcmap_init m0 /\
  msteps ex_none ex_none ex_sort ex_search inc_chunk (one_fl rn_new) false 1 0%Z m0 m /\ loop_done m /\ m_failed m = false /\
  flush ex_none 1 ex_none ex_none (one_root rn_new) (fun l => l) 0 3 (u_b (m_u m)) = Ok ([9], b', log) /\
  (forall b2, load_manifest (one_store rn_new) [9] = Some b2 ->
     bview ex_none 0 b2 [[100]; [103]] <> None /\ rn_src1 [[100]; [103]] = None /\
     bview ex_none 0 b2 [[111]; [103]] = None /\ rn_src1 [[111]; [103]] <> None).
Proof.
  eexists _, _, _, _. split.
  { intros q. rewrite rn_old_view. unfold rn_src0.
    destruct (list_eq_dec (list_eq_dec N.eq_dec) q []) as [->|N0]; [cbn; auto|].
    destruct (list_eq_dec (list_eq_dec N.eq_dec) q [[100]]) as [->|N1]; [cbn; auto|].
    destruct (list_eq_dec (list_eq_dec N.eq_dec) q [[100]; [103]]) as [->|N2].
    { cbn. repeat (split; [reflexivity|]). split; [|reflexivity]. apply (one_describes inc_truth [5] [1; 2]); reflexivity. }
    repeat (match goal with |- entry_matches _ _ (match ?x with _ => _ end) _ => destruct x; try exact I; try (now elim N0); try (now elim N1); try (now elim N2) end). }
  split.
  { constructor; [cbn; repeat constructor; cbn; intuition discriminate|]. intros o [<-|[<-|[]]]; [exists [[100]]|exists [[111]]];
      (split; [split; [discriminate|split; [good|reflexivity]]|cbn; auto]). }
  split; [eapply (Start_no_flush _ _ _ _ _ _ _ 1 _ true); [run_task|now left]|]. split; [apply msteps_refl|]. split; [repeat split|]. split; [reflexivity|]. split; [run_task|].
  intros b2 L. inversion L; subst b2. repeat split; try reflexivity; discriminate.
Qed.

(** The file chunk map is told to remove "d\g", but files are added to it as "d/g": a
    deleted file stays in it. *)
Definition fc_run (u : ustate) : fcmap := fcstep (u_fc u) (OFlush (fun l => l)).
Theorem C50_chunk_map_keeps_deleted_refuted : exists u1 u2,
  handle_file ex_none 1 (mkpasset 1 [100] [103] false None) (Some (mkchunked 2 [mkref 0 [5]] false)) (mku (mkb (Some rn_old) (fun _ => None)) fcmap_init [] []) = (true, u1) /\
  apply_operations ex_none 2 [(KDelete, mkai [100; 92; 103] TFile 3 0 [])] None None false (mku (u_b u1) (fc_run u1) [] []) = (None, u2) /\
  bview ex_none 0 (u_b u2) [[100]; [103]] = None /\ map fst (fm_files (fc_run u2)) = [[100; 47; 103]] /\
  (exists u3, apply_operations ex_none 2 [(KDelete, mkai [100; 47; 103] TFile 3 0 [])] None None false (mku (u_b u1) (fc_run u1) [] []) = (None, u3) /\ fm_files (fc_run u3) = []).
Proof.
  eexists _, _. split; [run_task|]. split; [run_task|]. split; [run_task|]. split; [run_task|]. eexists. split; run_task.
Qed.
