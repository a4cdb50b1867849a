(** C15, C16, C17: concrete syncs, and what does not hold. *)
From Verif Require Import Base ListX Str ModelFastcdc SpecFastcdc ModelGear ModelCdc SpecCdc PropCdc ModelFileDiff SpecFileDiff ProofFileDiff PropFileDiff
  ModelSync SpecSync ProofSync ProofSyncSafe ProofSyncDiff ProofSyncRun ProofSyncAll ProofSyncEx PropSync.
Local Open Scope N_scope.

(** Blocks of seven bytes. *)
Definition ex_blocks (c : bytes) : list bytes := match c with [] => [] | _ => if (length c <=? 7)%nat then [c] else [firstn 7 c; skipn 7 c] end.
Lemma ex_blocks_ok : blocks_ok ex_blocks.
Proof.
  intros c. unfold ex_blocks. destruct c as [|x c]; [split; [reflexivity|discriminate]|]. set (l := x :: c). destruct (Nat.leb_spec (length l) 7).
  - split; [cbn; now rewrite app_nil_r|]. intros b bs E. inversion E. now right.
  - split; [cbn [concat]; now rewrite app_nil_r, firstn_skipn|]. clearbody l. intros b bs E. assert (Eb : b = firstn 7 l) by congruence.
    left. rewrite Eb, firstn_length. lia.
Qed.
Lemma ex_params : params_ok 64 ex_cfg 10.
Proof. split; [lia|]. split; [split; cbn; lia|]. split; [lia|]. cbn. lia. Qed.

Notation ex_phases copy flt o cf cd content :=
  (phases copy flt (0%Z, 4096) (stable_sort fi_path) (stable_sort di_path) o cf cd content ex_blocks ex_hash 64 (lookup_gear gear64) ex_cfg 10 (fun _ => Nat.even) (fun _ => Nat.odd)).
Notation ex_during copy flt o cf cd content :=
  (during 420 copy flt (0%Z, 4096) (stable_sort fi_path) (stable_sort di_path) o cf cd content ex_blocks ex_hash 64 (lookup_gear gear64) ex_cfg 10 (fun _ => Nat.even) (fun _ => Nat.odd)).
Notation ex_synced copy flt o cf cd content :=
  (synced 420 copy flt (0%Z, 4096) (stable_sort fi_path) (stable_sort di_path) o cf cd content ex_blocks ex_hash 64 (lookup_gear gear64) ex_cfg 10 (fun _ => Nat.even) (fun _ => Nat.odd)).

(** The destination has a, d, d/b, x, x/y; the client a (changed), d, d/b (the same), n,
    n/c (new). *)
Definition pa : bytes := [97].
Definition pd : bytes := [100].
Definition pdb : bytes := [100; 47; 98].
Definition px : bytes := [120].
Definition pxy : bytes := [120; 47; 121].
Definition pn : bytes := [110].
Definition pnc : bytes := [110; 47; 99].
Definition ex_old : file := mk_file ex_basis 5 420.
Definition ex_dest : fs := [(pa, NFile ex_old); (pd, NDir); (pdb, NFile (mk_file [1; 2; 3] 7 420)); (px, NDir); (pxy, NFile (mk_file [9] 1 420))].
Definition ex_files : list finfo := [mk_finfo pa 6 152 0 nullptr; mk_finfo pdb 7 3 1 nullptr; mk_finfo pnc 8 9 2 nullptr].
Definition ex_dirs : list dinfo := [mk_dinfo pd 0 nullptr; mk_dinfo pn 1 nullptr].
Definition ex_new : bytes := [35; 33; 47; 98; 105; 110; 47; 115; 104].
Definition ex_content (i : N) : bytes := if i =? 0 then ex_src else if i =? 1 then [1; 2; 3] else ex_new.
Definition ex_opts (delete whole : bool) : sopts := mk_sopts delete true false false false whole false.
Definition any (_ : bytes) : bool := true.

Lemma ex_hyps : real_tree ex_dest /\ proper_tree ex_files ex_dirs /\ no_temp_clash ex_files ex_dirs /\
  (forall f g, In f ex_files -> get ex_dest (fi_path f) = Some (NFile g) \/ (exists c, None = Some c /\ get c (fi_path f) = Some (NFile g)) ->
     exchange_ok ex_hash 64 (lookup_gear gear64) ex_cfg (f_data g) (ex_content (fi_index f))).
Proof.
  split; [apply real_treeb_sound; vm_compute; reflexivity|]. split; [apply proper_treeb_sound; vm_compute; reflexivity|]. split; [apply no_temp_clashb_sound; vm_compute; reflexivity|].
  intros f g I [G|(c & X & _)]; [|discriminate]. destruct I as [<-|[<-|[<-|[]]]]; cbn [fi_path] in G.
  - assert (E : g = ex_old) by (vm_compute in G; inversion G; reflexivity). subst g. apply ex_exchange_ok; vm_compute; reflexivity.
  - assert (E : g = mk_file [1; 2; 3] 7 420) by (vm_compute in G; inversion G; reflexivity). subst g. apply ex_exchange_ok; vm_compute; reflexivity.
  - vm_compute in G. discriminate.
Qed.

Definition view (s : fs) : list (option node) := map (get s) [pa; pd; pdb; px; pxy; pn; pnc].
Example C17_example : exists s', ex_synced None any (ex_opts true false) ex_files ex_dirs ex_content ex_dest s' /\
  view s' = [Some (NFile (mk_file ex_src 6 493)); Some NDir; Some (NFile (mk_file [1; 2; 3] 7 420)); None; None; Some NDir; Some (NFile (mk_file ex_new 8 493))] /\ length s' = 5%nat.
Proof.
  set (r := go 420 None 60 (ex_phases None any (ex_opts true false) ex_files ex_dirs ex_content ex_dest, ex_dest)).
  exists (snd r). split; [|vm_compute; auto]. unfold synced.
  assert (E : r = ([], snd r)) by (vm_compute; reflexivity). pose proof (go_sound 420 None 60 (ex_phases None any (ex_opts true false) ex_files ex_dirs ex_content ex_dest, ex_dest)) as S. fold r in S. rewrite E in S. exact S.
Qed.

(** Nothing stands in the way in this case: C17_sync_succeeds applies. *)
Lemma ex_listed q : listed any (ex_opts true false) q.
Proof. split; [reflexivity|now left]. Qed.
Lemma ex_get q n : get ex_dest q = Some n -> In (q, n) ex_dest.
Proof. apply get_in. Qed.
Lemma ex_no_conflicts : no_conflicts any (ex_opts true false) ex_files ex_dirs None ex_dest.
Proof.
  assert (Go : forall q, goes any (ex_opts true false) q) by (intros q; split; [reflexivity|apply ex_listed]).
  constructor.
  - intros q r n _ Gq Nq Gr B. split; [apply ex_listed|]. apply belowb_spec in B. apply ex_get in Gq, Gr.
    destruct Gq as [E|[E|[E|[E|[E|[]]]]]]; inversion E; subst; try (elim Nq; cbn; auto; fail);
    (destruct Gr as [F|[F|[F|[F|[F|[]]]]]]; inversion F; subst; try discriminate B; intros H; vm_compute in H; intuition discriminate).
  - intros. right. apply Go.
  - intros f I G. split; [apply Go|]. intros (X & _). discriminate.
  - intros _ q I G. left. apply ex_listed.
  - intros p _ _. apply Go.
  - intros c f n X. discriminate.
Qed.
Example C17_succeeds_example : forall rest s', sync_runs 420 None (ex_phases None any (ex_opts true false) ex_files ex_dirs ex_content ex_dest, ex_dest) (rest, s') ->
  exists s'', sync_runs 420 None (rest, s') ([], s'').
Proof.
  destruct ex_hyps as (T & PT & NT & X). apply C17_sync_succeeds; auto.
  - apply stable_sort_sorts.
  - apply stable_sort_sorts.
  - discriminate.
  - apply ex_params.
  - apply ex_no_conflicts.
Qed.

(** A moment of the same sync, after [n] steps. *)
Definition after (n : nat) (delete whole : bool) (cf : list finfo) (content : N -> bytes) (s : fs) : fs :=
  snd (go 420 None n (ex_phases None any (ex_opts delete whole) cf ex_dirs content s, s)).
Lemma after_during n delete whole cf content s : ex_during None any (ex_opts delete whole) cf ex_dirs content s (after n delete whole cf content s).
Proof.
  unfold during, after. set (x := (ex_phases None any (ex_opts delete whole) cf ex_dirs content s, s)). exists (fst (go 420 None n x)).
  pose proof (go_sound 420 None n x) as R. rewrite (surjective_pairing (go 420 None n x)) in R. exact R.
Qed.

(** *** C16, the full claim: the path holds the old or the new contents at every moment.
    It does not: between remove() and rename() (common/path.cc:1090-1108) there is no
    file of that name. *)
Theorem C16_old_or_new_at_every_moment_refuted :
  ~ (forall s s' f old, real_tree s -> ex_during None any (ex_opts true false) ex_files ex_dirs ex_content s s' -> In f ex_files -> get s (fi_path f) = Some (NFile old) ->
     exchange_ok ex_hash 64 (lookup_gear gear64) ex_cfg (f_data old) (ex_content (fi_index f)) ->
     holds s' (fi_path f) (f_data old) \/ holds s' (fi_path f) (ex_content (fi_index f))).
Proof.
  intros H. destruct ex_hyps as (T & _ & _ & X). set (f := mk_finfo pa 6 152 0 nullptr).
  assert (G : get (after 22 true false ex_files ex_content ex_dest) pa = None) by (vm_compute; reflexivity).
  destruct (H ex_dest (after 22 true false ex_files ex_content ex_dest) f ex_old T) as [(g & E & _)|(g & E & _)].
  - apply after_during.
  - now left.
  - vm_compute. reflexivity.
  - apply (X f ex_old); [now left|]. left. vm_compute. reflexivity.
  - cbn [fi_path f] in E. congruence.
  - cbn [fi_path f] in E. congruence.
Qed.

(** With --whole-file the file is truncated and written in place: there are moments when
    neither its path nor the temporary file has the old or the new contents. *)
Theorem C16_whole_file_loses_old_contents_refuted : exists s s',
  real_tree s /\ ex_during None any (ex_opts true true) ex_files ex_dirs ex_content s s' /\ holds s pa ex_basis /\
  (forall p, ~ holds s' p ex_basis) /\ (forall p, ~ holds s' p (ex_content 0)).
Proof.
  destruct ex_hyps as (T & _). exists ex_dest, (after 17 true true ex_files ex_content ex_dest). split; [exact T|]. split; [apply after_during|].
  split; [exists ex_old; split; [vm_compute; reflexivity|reflexivity]|].
  assert (L : forallb (fun e => match snd e with NFile f => negb (seqb (f_data f) ex_basis) && negb (seqb (f_data f) (ex_content 0)) | NDir => true end) (after 17 true true ex_files ex_content ex_dest) = true) by (vm_compute; reflexivity).
  rewrite forallb_forall in L.
  split; intros p (g & G & E); apply get_in in G; specialize (L _ G); cbn [snd] in L; rewrite E, seqb_refl in L; cbn in L; rewrite ?andb_false_r in L; discriminate.
Qed.

(** *** C17 without the assumption on temporary names: a file of the destination that
    happens to have the name of a temporary file is destroyed, without --delete; and a
    client's file of that name is gone after a successful sync. *)
Definition ptmp : bytes := pa ++ temp_suffix.
Definition ex_dest2 : fs := (ptmp, NFile (mk_file [7; 7] 3 420)) :: ex_dest.
Theorem C17_unrelated_file_destroyed_refuted : exists s s' q,
  real_tree s /\ ex_synced None any (ex_opts false false) ex_files ex_dirs ex_content s s' /\ ~ client_path ex_files ex_dirs q /\ get s q <> None /\ get s' q = None.
Proof.
  set (x := (ex_phases None any (ex_opts false false) ex_files ex_dirs ex_content ex_dest2, ex_dest2)).
  exists ex_dest2, (snd (go 420 None 60 x)), ptmp. split; [apply real_treeb_sound; vm_compute; reflexivity|].
  split; [|split; [|split; [vm_compute; discriminate|vm_compute; reflexivity]]].
  - unfold synced. assert (E : go 420 None 60 x = ([], snd (go 420 None 60 x))) by (vm_compute; reflexivity). pose proof (go_sound 420 None 60 x) as S. rewrite E in S. exact S.
  - intros [H|H]; vm_compute in H; intuition discriminate.
Qed.

Definition ex_files2 : list finfo := mk_finfo ptmp 9 2 3 nullptr :: ex_files.
Theorem C17_client_file_lost_refuted : exists s s' f,
  real_tree s /\ proper_tree ex_files2 ex_dirs /\ ex_synced None any (ex_opts false false) ex_files2 ex_dirs ex_content s s' /\ In f ex_files2 /\ get s' (fi_path f) = None.
Proof.
  set (x := (ex_phases None any (ex_opts false false) ex_files2 ex_dirs ex_content ex_dest, ex_dest)).
  exists ex_dest, (snd (go 420 None 60 x)), (mk_finfo ptmp 9 2 3 nullptr). split; [apply real_treeb_sound; vm_compute; reflexivity|]. split; [apply proper_treeb_sound; vm_compute; reflexivity|].
  split; [|split; [now left|vm_compute; reflexivity]].
  unfold synced. assert (E : go 420 None 60 x = ([], snd (go 420 None 60 x))) by (vm_compute; reflexivity). pose proof (go_sound 420 None 60 x) as S. rewrite E in S. exact S.
Qed.

(** The premises of C15_hidden_contents_block_delete: x/y is excluded by the filter. *)
Definition hide (p : bytes) : bool := negb (seqb p pxy).
Example C15_hidden_contents_example : forall s', ~ ex_synced None hide (ex_opts true false) ex_files ex_dirs ex_content ex_dest s'.
Proof.
  destruct ex_hyps as (T & PT & NT & X). apply C15_hidden_contents_block_delete with (q := px) (r := pxy); auto; try apply stable_sort_sorts; try discriminate.
  - split; [reflexivity|now left].
  - vm_compute. intuition discriminate.
  - exists [121]. reflexivity.
  - intros (H & _). discriminate.
Qed.
Print Assumptions C16_old_or_new_at_every_moment_refuted.
Print Assumptions C16_whole_file_loses_old_contents_refuted.
Print Assumptions C17_unrelated_file_destroyed_refuted.
Print Assumptions C17_client_file_lost_refuted.
