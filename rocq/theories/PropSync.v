(** C15, C16, C17: what a sync does to the destination directory. *)
From Verif Require Import Base ListX Str ModelFastcdc SpecFastcdc ModelCdc SpecCdc PropCdc ModelFileDiff SpecFileDiff ProofFileDiff PropFileDiff
  ModelSync SpecSync ProofSync ProofSyncSafe ProofSyncDiff ProofSyncRun ProofSyncOk ProofSyncProgress ProofSyncAll ProofSyncEx.
Local Open Scope N_scope.

Section Sync.
(** Mode of new files, copy-dest directory, filter, what stat says about directories,
    std::sort, options, the client's files and directories and their contents, the blocks
    in which contents arrive, the delta exchange and its scheduling: all arbitrary. *)
Variable mode0 : N.
Variable copy_fs : option fs.
Variable filter_match : bytes -> bool.
Variable dir_stat : Z * N.
Variable sort_f : list finfo -> list finfo.
Variable sort_d : list dinfo -> list dinfo.
Variable opts : sopts.
Variable client_files : list finfo.
Variable client_dirs : list dinfo.
Variable content : N -> bytes.
Variable blocks : bytes -> list bytes.
Variable hash : bytes -> N.
Variable w : nat.
Variable gear : byte -> N.
Variable cfg : config.
Variable iobuf : nat.
Variable completed available : N -> nat -> bool.
Notation sync_moment := (during mode0 copy_fs filter_match dir_stat sort_f sort_d opts client_files client_dirs content blocks hash w gear cfg iobuf completed available).
Notation sync_done := (synced mode0 copy_fs filter_match dir_stat sort_f sort_d opts client_files client_dirs content blocks hash w gear cfg iobuf completed available).

(** *** C15 *)

(** With --dry-run the destination is the same at every moment. *)
Theorem C15_dry_run_changes_nothing : so_dry_run opts = true -> forall s s', sync_moment s s' -> s' = s.
Proof. intros Dr s s' R. eapply dry_run_unchanged; eassumption. Qed.

Hypothesis SF : sorts fi_path sort_f.
Hypothesis SD : sorts di_path sort_d.
Hypothesis CP : forall c, copy_fs = Some c -> real_tree c.
Hypothesis PT : proper_tree client_files client_dirs.
Hypothesis NT : no_temp_clash client_files client_dirs.
Let NDc : forall c, copy_fs = Some c -> NoDup (map fst c) := fun c E => proj1 (CP c E).

(** At every moment, whatever else is in the destination is as before: only the
    client's own paths, its temporary files, and -- with --delete -- paths found by the
    server's search can change; besides, directories above the client's paths are made. *)
Theorem C15_nothing_else_touched : forall s s' q, real_tree s -> sync_moment s s' ->
  ~ client_path client_files client_dirs q -> ~ is_temp client_files q ->
  (so_delete opts = true -> get s q <> None -> ~ listed filter_match opts q) ->
  get s' q = get s q \/
  (get s q = None /\ get s' q = Some NDir /\ exists p, client_path client_files client_dirs p /\ below q p).
Proof.
  intros s s' q (ND & _) R Nc Nt H. eapply nothing_else; eauto. intros De G. destruct (visible filter_match opts q) eqn:V; [|reflexivity]. elim (H De G). now apply listed_visible.
Qed.

(** Without --delete nothing that is not the client's is ever lost. *)
Corollary C15_without_delete_nothing_lost : so_delete opts = false -> forall s s' q n, real_tree s -> sync_moment s s' ->
  ~ client_path client_files client_dirs q -> ~ is_temp client_files q -> get s q = Some n -> get s' q = Some n.
Proof.
  intros Nd s s' q n T R Nc Nt G. destruct (C15_nothing_else_touched s s' q T R Nc Nt) as [E|(E & _)]; [congruence|congruence|congruence].
Qed.

(** With --delete, after a successful sync everything is gone that the server's search
    finds and the client does not have. *)
Theorem C15_extraneous_deleted : so_dry_run opts = false -> so_delete opts = true -> forall s s' q, real_tree s -> sync_done s s' ->
  listed filter_match opts q -> ~ client_path client_files client_dirs q -> ~ is_temp client_files q ->
  (forall p, client_path client_files client_dirs p -> ~ below q p) -> get s' q = None.
Proof.
  intros Dr De s s' q (ND & T) R V Nc Nt Nb. destruct (get s q) as [n|] eqn:G.
  - eapply extraneous_gone; eauto; [congruence|now apply listed_visible].
  - assert (R' : sync_moment s s') by (exists []; exact R).
    destruct (C15_nothing_else_touched s s' q (conj ND T) R' Nc Nt) as [E|(_ & _ & p & Cp & B)]; [congruence|congruence|]. now elim (Nb p Cp).
Qed.

(** At every moment the destination is a tree: nothing is removed before its contents,
    nothing is made outside a directory. *)
Theorem C15_always_a_tree : forall s s', real_tree s -> sync_moment s s' -> real_tree s'.
Proof. intros s s' T (rest & R). exact (runs_tree mode0 copy_fs _ _ R T). Qed.

(** If a directory is to be deleted and something in it is hidden from the server's
    search, the sync cannot succeed. *)
Theorem C15_hidden_contents_block_delete : so_dry_run opts = false -> so_delete opts = true -> forall s q r, real_tree s ->
  get s q = Some NDir -> listed filter_match opts q -> ~ In q (map di_path client_dirs) ->
  below q r -> get s r <> None -> ~ listed filter_match opts r -> forall s', ~ sync_done s s'.
Proof.
  intros Dr De s q r T Gq Lq Nq B Gr Lr s' R. pose proof (proj1 T) as ND.
  destruct (stages_done mode0 copy_fs filter_match dir_stat sort_f sort_d opts client_files client_dirs content blocks hash w gear cfg iobuf completed available s s' Dr R) as (s1 & _ & _ & ps1 & _ & _ & _ & R1 & _).
  rewrite De in R1. destruct R1 as (R1 & En).
  destruct (delete_phase mode0 copy_fs filter_match dir_stat sort_f sort_d opts client_files client_dirs content blocks hash w gear completed available s SD ps1 s1 Dr R1) as (A & Z).
  assert (Gq1 : get s1 q = None). { apply (Z En). right. apply extraneous_dir; auto. split; [exact Gq|]. split; [now apply listed_visible|exact Nq]. }
  pose proof (phase_tree mode0 (the_copy copy_fs) _ _ R1 T) as T1. cbn [snd] in T1.
  assert (Gr1 : get s1 r = get s r).
  { destruct (A r) as [E|(E & _)]; [exact E|]. elim Lr. apply listed_visible. apply extr_spec in E; auto. now destruct E as (_ & V & _). }
  apply (real_tree_at s1 (proj1 T1)) in T1. rewrite <- Gr1 in Gr. rewrite (T1 q r Gr B) in Gq1. discriminate.
Qed.

(** *** C16 *)
Hypothesis BL : blocks_ok blocks.
Hypothesis PO : params_ok w cfg iobuf.
Hypothesis M4 : (4 <= min_size cfg)%nat.

(** At every moment of a sync (that does not transfer whole files), a file that exists in
    the destination and is sent by the client is there with its old contents, time and
    mode, or with the complete new contents; or there is no file of that name, and then
    the complete new contents are in the temporary file next to it. *)
Theorem C16_old_new_or_temp_partial : so_whole_file opts = false ->
  forall s s' f old, real_tree s -> sync_moment s s' -> In f client_files -> get s (fi_path f) = Some (NFile old) ->
  noticed filter_match opts (fi_path f) -> exchange_ok hash w gear cfg (f_data old) (content (fi_index f)) ->
  get s' (fi_path f) = Some (NFile old) \/ holds s' (fi_path f) (content (fi_index f)) \/
  (get s' (fi_path f) = None /\ holds s' (fi_path f ++ temp_suffix) (content (fi_index f))).
Proof.
  intros Nw s s' f old (ND & _) R If G Nf Ex.
  destruct (old_or_new_during mode0 copy_fs filter_match dir_stat sort_f sort_d opts client_files client_dirs content blocks hash w gear cfg iobuf completed available
    s ND NDc SF SD PT NT BL PO M4 s' f old R If G Nf Nw Ex) as [H|[H|H]]; auto.
Qed.

(** *** C17 *)

(** After a successful sync every file of the client is in the destination with the
    client's contents and time.  Without --checksum the server trusts size and time, so
    a file it skips must have been equal.  Files that had to be sent and look like
    programs can be executed. *)
Theorem C17_files_delivered : so_dry_run opts = false -> so_existing opts = false ->
  forall s s', real_tree s -> sync_done s s' ->
  (so_checksum opts = false -> forall f g, In f client_files -> get s (fi_path f) = Some (NFile g) ->
     f_mtime g = fi_mtime f -> N.of_nat (length (f_data g)) = fi_size f -> f_data g = content (fi_index f)) ->
  (so_relative opts = true -> so_recursive opts = false -> so_checksum opts = false -> forall f, In f client_files -> get s (fi_path f) <> Some NDir) ->
  (forall f g, In f client_files -> get s (fi_path f) = Some (NFile g) \/ (exists c, copy_fs = Some c /\ get c (fi_path f) = Some (NFile g)) ->
     exchange_ok hash w gear cfg (f_data g) (content (fi_index f))) ->
  forall f, In f client_files ->
    holds_at s' (fi_path f) (content (fi_index f)) (fi_mtime f) /\
    (so_checksum opts = true \/ ~ (exists g, get s (fi_path f) = Some (NFile g) /\ f_mtime g = fi_mtime f /\ N.of_nat (length (f_data g)) = fi_size f) ->
     looks_executable (content (fi_index f)) -> exists g, get s' (fi_path f) = Some (NFile g) /\ N.land (f_mode g) 73 = 73).
Proof.
  intros Dr Ne s s' (ND & _) R Q Nd X f If.
  destruct (delivered mode0 copy_fs filter_match dir_stat sort_f sort_d opts client_files client_dirs content blocks hash w gear cfg iobuf completed available
    s ND NDc SF SD PT NT BL PO M4 Q Nd) with (s' := s') (f := f) as (A & B); auto.
  - intros f0 g I0 [H|H]; apply (X f0 g I0); [now left|right]. unfold the_copy in H. destruct copy_fs as [c|]; [eauto|discriminate].
  - split; [exact A|]. intros H L. destruct (B H) as (g & G & _ & _ & M). eauto.
Qed.

(** With --existing, the same for the files that are there. *)
Theorem C17_existing_files_updated : so_dry_run opts = false ->
  forall s s', real_tree s -> sync_done s s' ->
  (so_checksum opts = false -> forall f g, In f client_files -> get s (fi_path f) = Some (NFile g) ->
     f_mtime g = fi_mtime f -> N.of_nat (length (f_data g)) = fi_size f -> f_data g = content (fi_index f)) ->
  (so_relative opts = true -> so_recursive opts = false -> so_checksum opts = false -> forall f, In f client_files -> get s (fi_path f) <> Some NDir) ->
  (forall f g, In f client_files -> get s (fi_path f) = Some (NFile g) \/ (exists c, copy_fs = Some c /\ get c (fi_path f) = Some (NFile g)) ->
     exchange_ok hash w gear cfg (f_data g) (content (fi_index f))) ->
  forall f g, In f client_files -> get s (fi_path f) = Some (NFile g) -> noticed filter_match opts (fi_path f) ->
    holds_at s' (fi_path f) (content (fi_index f)) (fi_mtime f).
Proof.
  intros Dr s s' (ND & _) R Q Nd X f g If G Nf.
  destruct (delivered mode0 copy_fs filter_match dir_stat sort_f sort_d opts client_files client_dirs content blocks hash w gear cfg iobuf completed available
    s ND NDc SF SD PT NT BL PO M4 Q Nd) with (s' := s') (f := f) as (A & _); auto.
  - intros f0 g0 I0 [H|H]; apply (X f0 g0 I0); [now left|right]. unfold the_copy in H. destruct copy_fs as [c|]; [eauto|discriminate].
  - right. eauto.
Qed.

(** Every directory of the client is there. *)
Theorem C17_dirs_delivered : so_dry_run opts = false -> so_existing opts = false ->
  forall s s' x, real_tree s -> sync_done s s' -> In x client_dirs -> get s' (di_path x) = Some NDir.
Proof. intros Dr Ne s s' x (ND & _) R I. eapply dirs_delivered; eauto. Qed.

(** No temporary files are left. *)
Theorem C17_no_temp_files_left : so_dry_run opts = false ->
  forall s s' f, real_tree s -> sync_done s s' -> In f client_files ->
  (forall f g, In f client_files -> get s (fi_path f) = Some (NFile g) \/ (exists c, copy_fs = Some c /\ get c (fi_path f) = Some (NFile g)) ->
     exchange_ok hash w gear cfg (f_data g) (content (fi_index f))) ->
  get s (fi_path f ++ temp_suffix) = None -> get s' (fi_path f ++ temp_suffix) = None.
Proof.
  intros Dr s s' f (ND & _) R I X G.
  apply (no_temp_left mode0 copy_fs filter_match dir_stat sort_f sort_d opts client_files client_dirs content blocks hash w gear cfg iobuf completed available
    s ND NDc SF SD PT NT BL PO M4) with (f := f); auto.
  intros f0 g I0 [H|H]; apply (X f0 g I0); [now left|right]. unfold the_copy in H. destruct copy_fs as [c|]; [eauto|discriminate].
Qed.

(** Every sync ends, whatever happens. *)
Theorem C17_sync_ends : forall x, Acc (fun y x => sync_step mode0 copy_fs x y) x.
Proof. apply sync_acc. Qed.

(** If nothing stands in the way, no sync fails: wherever it has got to, under whatever
    schedule, it can go on to success -- and, as it ends, it will. *)
Theorem C17_sync_succeeds : forall s, real_tree s -> no_conflicts filter_match opts client_files client_dirs copy_fs s ->
  (forall f g, In f client_files -> get s (fi_path f) = Some (NFile g) \/ (exists c, copy_fs = Some c /\ get c (fi_path f) = Some (NFile g)) ->
     exchange_ok hash w gear cfg (f_data g) (content (fi_index f))) ->
  forall rest s', sync_runs mode0 copy_fs (phases copy_fs filter_match dir_stat sort_f sort_d opts client_files client_dirs content blocks hash w gear cfg iobuf completed available s, s) (rest, s') ->
  exists s'', sync_runs mode0 copy_fs (rest, s') ([], s'').
Proof.
  intros s T NC X rest s' R. pose proof (proj1 T) as ND. pose proof (proj1 (real_tree_at s ND) T) as Tr.
  assert (X' : forall f g, In f client_files -> get s (fi_path f) = Some (NFile g) \/ get (the_copy copy_fs) (fi_path f) = Some (NFile g) -> exchange_ok hash w gear cfg (f_data g) (content (fi_index f))).
  { intros f0 g I0 [H|H]; apply (X f0 g I0); [now left|right]. unfold the_copy in H. destruct copy_fs as [c|]; [eauto|discriminate]. }
  pose proof (sync_good mode0 copy_fs filter_match dir_stat sort_f sort_d opts client_files client_dirs content blocks hash w gear cfg iobuf completed available s ND NDc SF SD PT NT PO M4 X' Tr NC) as G.
  apply good_finish. exact (good_runs mode0 copy_fs _ _ R G).
Qed.
End Sync.
Print Assumptions C15_always_a_tree.
Print Assumptions C15_hidden_contents_block_delete.
Print Assumptions C17_sync_ends.
Print Assumptions C17_sync_succeeds.
Print Assumptions C15_dry_run_changes_nothing.
Print Assumptions C15_nothing_else_touched.
Print Assumptions C15_without_delete_nothing_lost.
Print Assumptions C15_extraneous_deleted.
Print Assumptions C16_old_new_or_temp_partial.
Print Assumptions C17_files_delivered.
Print Assumptions C17_existing_files_updated.
Print Assumptions C17_dirs_delivered.
Print Assumptions C17_no_temp_files_left.
