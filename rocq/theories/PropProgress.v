(** C76: the progress display tells the truth, a bounded number of times. *)
From Verif Require Import Base Str ModelProgress SpecProgress ProofProgress.
Local Open Scope N_scope.

(** --quiet: nothing is printed, whatever is reported. *)
Theorem C76_quiet : forall c l t, quiet c = true -> concat (snd (calls c l t)) = [].
Proof. intros. now apply calls_quiet. Qed.

(** With -v every copied or synced file leaves exactly one line, in order, that names it and
    says it is complete; also empty files, files without a report, and files whose reports
    do not add up. *)
Theorem C76_every_file_has_its_line : forall c js t, quiet c = false -> only_total c = false ->
  Forall2 (fun j p => exists op a b, p = mkp (LFile op (job_path j) 1 1 a b) true) js
    (permanent (snd (calls c (flat_map job_calls js) t))).
Proof. intros. now apply jobs_lines. Qed.

(** Without -v: when all files of the statistics have been copied and synced, and the sizes
    are not all (nearly) zero, the last line says so, and stays. *)
Theorem C76_total_complete : forall c now ma ex mi ch md ed xd pre js t0,
  quiet c = false -> only_total c = true -> js <> [] -> Forall adds_up js ->
  Forall (fun x => match snd x with StartDelete | FileDeleted _ | DirDeleted _ | Finish => True | _ => False end) pre ->
  let copy := sum (map copy_size js) in
  let client := sum (map client_size js) in
  let server := sum (map server_size_of js) in
  let total := copy + client + server / 40 in
  0 < total ->
  exists os, snd (calls c ((now, FileStats mi ex ma ch copy client server md ed xd) :: pre ++ flat_map job_calls js) (fresh t0)) =
             os ++ [[mkp (LTotal total total) true]].
Proof.
  intros c now ma ex mi ch md ed xd pre js t0 Q V Ne A P copy client server total L.
  cbn [calls]. destruct (do_call c now _ (fresh t0)) as (t1, o1) eqn:E.
  assert (E1 : sums t1 = (0, 0, 0) /\ goals t1 = job_sum js) by (cbn in E; injection E as <- <-; split; reflexivity).
  destruct E1 as (E1 & E2). destruct (total_complete c pre js t1 total Q V Ne A P E1 E2 eq_refl L) as (os & Eo).
  destruct (calls c (pre ++ flat_map job_calls js) t1) as (t2, o2). cbn [snd] in *. exists (o1 :: os). rewrite Eo. reflexivity.
Qed.

(** A total that lasts is complete. *)
Theorem C76_lasting_total_is_complete : forall c l t a b, In (LTotal a b) (map p_line (permanent (snd (calls c l t)))) -> a = b.
Proof.
  intros c l t a b H. apply in_map_iff in H. destruct H as (p & E & H). unfold permanent in H. apply filter_In in H. destruct H as (H & K).
  eapply calls_lasting; eauto.
Qed.

(** The total shown never goes back, and never exceeds one, in any sequence of calls without
    new statistics. *)
Theorem C76_total_never_goes_back : forall c l t, Forall (fun x => match snd x with FileStats _ _ _ _ _ _ _ _ _ _ => False | _ => True end) l ->
  let shown := flat_map shown_total (concat (snd (calls c l t))) in
  Forall (fun x => fst x <= snd x /\ 0 < snd x) shown /\ ForallOrdPairs (fun x y => snd x = snd y /\ fst x <= fst y) shown.
Proof.
  intros c l t H. destruct (calls_shown c l H t) as (A & B). split; [|exact B].
  eapply Forall_impl; [|exact A]. intros x (_ & X & Y). split; [exact Y|lia].
Qed.

(** A report prints at most once in 100 ms on a terminal, and once a second otherwise: not
    sooner after whatever was printed before. *)
Theorem C76_rate : forall c l from i j n1 k1 n2 k2 o1 o2 p q,
  nondecreasing from (map fst l) -> (i < j)%nat ->
  nth_error l i = Some (n1, k1) -> nth_error l j = Some (n2, k2) -> k2 <> Finish ->
  nth_error (snd (calls c l (fresh from))) i = Some o1 -> nth_error (snd (calls c l (fresh from))) j = Some o2 ->
  In p o1 -> limited p -> In q o2 -> limited q ->
  n1 + (if tty c then 100 else 1000) <= n2.
Proof. intros. eapply (rate c l from (fresh from)); eauto. apply N.le_refl. Qed.

(** With -v every deleted file or directory leaves one line, numbered from 1. *)
Theorem C76_every_deletion_has_its_line : forall c ds t now end_, quiet c = false -> only_total c = false ->
  dirs_deleted t = 0 -> 0 < all_files_to_delete t + all_dirs_to_delete t ->
  concat (snd (calls c ((now, StartDelete) :: map (fun d : N * (bool * bytes) => (fst d, if fst (snd d) then DirDeleted (snd (snd d)) else FileDeleted (snd (snd d)))) ds ++ [(end_, Finish)]) t)) =
  map (fun x => mkp (LDeletedPath (snd (snd (snd x))) (N.of_nat (fst x)) (all_files_to_delete t + all_dirs_to_delete t)) true) (combine (seq 1 (length ds)) ds).
Proof.
  intros c ds t now end_ Q V D L. destruct t as [m ff df p sz cc ac tc cs as_ ts ss cd ad td fd tfd dd tdd pt]. cbn in D, L. subst dd.
  cbn [calls do_call]. rewrite calls_app.
  match goal with |- context [calls c _ ?x] => destruct (deleted_lines c ds Q V x eq_refl L) as (M & T & E) end.
  unfold del_calls in *. destruct (calls c _ _) as (t2, o2). cbn [fst snd calls] in *.
  assert (F : snd (do_call c end_ Finish t2) = []).
  { assert (X : update_output c end_ true t2 = (t2, [])).
    { unfold update_output. rewrite Q, M, V. cbn [negb andb]. rewrite orb_true_r. reflexivity. }
    destruct t2. cbn [do_call]. rewrite X. reflexivity. }
  destruct (do_call c end_ Finish t2) as (t3, o3). cbn [snd] in F. subst o3. cbn [snd].
  assert (C : concat ([] :: o2 ++ [[]]) = concat o2) by (cbn [concat app]; rewrite concat_app; cbn; now rewrite app_nil_r).
  rewrite C, E. reflexivity.
Qed.

(** The line that ends the search tells the numbers of files and directories found. *)
Theorem C76_found : forall c fs t now end_, quiet c = false -> dirs_found t = 0 ->
  exists os, snd (calls c ((now, StartFindFiles) :: map (fun f : N * bool => (fst f, if snd f then DirFound else FileFound)) fs ++ [(end_, Finish)]) t) =
  os ++ [[mkp (LFound (N.of_nat (length (filter (fun f => negb (snd f)) fs))) (N.of_nat (length (filter snd fs)))) true]].
Proof.
  intros c fs t now end_ Q D. destruct t as [m ff df p sz cc ac tc cs as_ ts ss cd ad td fd tfd dd tdd pt]. cbn in D. subst df.
  cbn [calls do_call]. rewrite calls_app.
  match goal with |- context [calls c _ ?x] => destruct (found_count c fs x eq_refl) as (M & F & G) end.
  destruct (calls c _ _) as (t2, o2). cbn [fst snd calls] in *.
  assert (X : snd (do_call c end_ Finish t2) = [mkp (LFound (files_found t2) (dirs_found t2)) true]).
  { assert (X : update_output c end_ true t2 = (set_timer t2 end_, [mkp (LFound (files_found t2) (dirs_found t2)) true])).
    { unfold update_output. rewrite Q, M, andb_false_r. reflexivity. }
    destruct t2. cbn [do_call]. rewrite X. reflexivity. }
  destruct (do_call c end_ Finish t2) as (t3, o3). cbn [snd] in X. subst o3. exists ([] :: o2). cbn [app]. rewrite F, G, !N.add_0_l.
  reflexivity.
Qed.

(** The line of a file has exactly the width of the console, or 12 columns for the path if
    that is more; the path is shown whole, or its end after "...". *)
Theorem C76_line_width : forall width path txt, len (file_text width path txt) = N.max width (12 + len txt).
Proof.
  intros width path txt. unfold file_text. unfold len at 1. rewrite app_length, Nat2N.inj_add. fold (len txt).
  match goal with |- context [padd_right ?s ?n] => pose proof (len_padd s n) as P; pose proof (len_shorten path n ltac:(lia)) as (S1 & _) end.
  unfold len at 1 in P. rewrite P. lia.
Qed.
Theorem C76_path_shown : forall path columns, 12 <= columns ->
  len path <= columns /\ shorten path columns = path \/
  columns < len path /\ exists a b, path = a ++ b /\ shorten path columns = [46; 46; 46] ++ b /\ len (shorten path columns) = columns.
Proof.
  intros path n H. destruct (len_shorten path n ltac:(lia)) as (_ & [(A & B)|(A & a & b & B & C & D)]); [auto|right].
  split; [exact A|]. exists a, b. split; [exact B|]. split; [exact C|]. rewrite C. unfold len in *. cbn [app length]. lia.
Qed.

(** On a terminal a new line leaves nothing of the one it overwrites, if that was not wider
    than the console. *)
Theorem C76_line_replaced : forall width old text, len old <= width ->
  exists blanks, overwrite old (removelast (console false true text false width)) = text ++ repeat 32 blanks.
Proof.
  intros width old text H. unfold console. cbn [negb orb]. rewrite removelast_last.
  exists (N.to_nat (width - len text)). unfold overwrite. fold (padd_right text width).
  rewrite skipn_all2, app_nil_r; [reflexivity|]. pose proof (len_padd text width) as P. unfold len in *. unfold byte in *. lia.
Qed.

(** Sizes of up to 2^64 bytes are shown with at most four digits, in the smallest unit for
    which that is possible. *)
Theorem C76_size_shown : forall size, size < 2 ^ 64 ->
  let (v, unit) := format_int_bytes size in
  v <= 9999 /\ v = size / 1024 ^ unit /\ unit <= 6 /\ forall u, u < unit -> 9999 < size / 1024 ^ u.
Proof.
  intros size H. unfold format_int_bytes. pose proof (format_int_spec 7 0 size) as X. destruct (format_int 7 0 size) as (v, k).
  destruct X as (X1 & X2 & X3 & X4). rewrite N.sub_0_r in *. change (N.of_nat 7) with 7 in *.
  assert (K : k <= 6).
  { destruct (N.le_gt_cases k 6) as [K|K]; [exact K|]. specialize (X4 ltac:(lia)). replace (k - 1) with 6 in X4 by lia.
    exfalso. assert (size / 1024 ^ 6 <= (2 ^ 64 - 1) / 1024 ^ 6) by (apply N.div_le_mono; [discriminate|lia]).
    change ((2 ^ 64 - 1) / 1024 ^ 6) with 15 in H0. lia. }
  split; [apply X3; lia|]. split; [exact X2|]. split; [exact K|]. intros u Hu. specialize (X4 ltac:(lia)).
  assert (M : size / 1024 ^ (k - 1) <= size / 1024 ^ u).
  { apply N.div_le_compat_l. split; [apply N.lt_le_trans with 1; [lia|]; pose proof (N.pow_nonzero 1024 u ltac:(lia)); lia|].
    apply N.pow_le_mono_r; lia. }
  lia.
Qed.
Theorem C76_time_shown : forall sec, let '(h, m, s) := format_time sec in m < 60 /\ s < 60 /\ h * 3600 + m * 60 + s = sec.
Proof.
  intros sec. unfold format_time.
  pose proof (N.div_mod sec 3600 ltac:(lia)) as A. pose proof (N.mod_lt sec 3600 ltac:(lia)) as B.
  replace (sec - sec / 3600 * 3600) with (sec mod 3600) by lia. remember (sec mod 3600) as r.
  pose proof (N.div_mod r 60 ltac:(lia)) as C. pose proof (N.mod_lt r 60 ltac:(lia)) as D.
  replace (r - r / 60 * 60) with (r mod 60) by lia.
  split; [|split; [exact D|lia]]. apply N.div_lt_upper_bound; lia.
Qed.

(** ** Examples *)
Definition total_only := mkc false true true.
Definition per_file := mkc false true false.
Definition two_jobs := [Copying 0 [97] 300 [(10, 100); (200, 200)] 210; Syncing 220 [98] 50 4000 [(230, (0, 1000)); (250, (50, 3000))] 260].
Example C76_jobs_example : Forall adds_up two_jobs /\
  permanent (snd (calls per_file (flat_map job_calls two_jobs) (fresh 0))) =
    [mkp (LFile MCopy [97] 1 1 1 1) true; mkp (LFile MSyncDiff [98] 1 1 1 1) true].
Proof. split; [repeat constructor|reflexivity]. Qed.
Example C76_total_example :
  concat (snd (calls total_only ((0, FileStats 1 0 0 1 300 50 4000 0 0 0) :: flat_map job_calls two_jobs) (fresh 0))) =
  map (fun l => mkp l true) [LStats 0 1 0; LStats 1 1 0; LStats 2 0 0; LStats 3 0 0] ++ [mkp (LTotal 300 450) false; mkp (LTotal 450 450) true].
Proof. reflexivity. Qed.
Example C76_rate_example : exists q o,
  nth_error (snd (calls total_only (job_calls (Copying 0 [97] 300 [(10, 100); (200, 200)] 210)) (fresh 0))) 2 = Some o /\ In q o /\ limited q.
Proof. exists (mkp (LTotal 1 1) false), [mkp (LTotal 1 1) false]. split; [reflexivity|]. split; [now left|exact Logic.I]. Qed.
Example C76_deletion_example :
  map p_line (concat (snd (calls per_file [(0, FileStats 0 1 0 0 0 0 0 0 1 0); (1, StartDelete); (2, FileDeleted [97]); (3, DirDeleted [98]); (4, Finish)] (fresh 0)))) =
  [LStats 0 0 0; LStats 1 0 0; LStats 2 0 0; LStats 3 1 1; LDeletedPath [97] 1 2; LDeletedPath [98] 2 2].
Proof. reflexivity. Qed.

(** ** Claimed and refuted *)
(** "A sync that has finished says 100 %": not if all its files are empty. *)
Theorem C76_refuted_empty_files : exists js, js <> [] /\ Forall adds_up js /\
  forall p, In p (concat (tl (snd (calls total_only ((0, FileStats 2 0 0 0 0 0 0 0 0 0) :: flat_map job_calls js) (fresh 0))))) ->
  p = mkp (LTotal 0 1) false.
Proof.
  exists [Copying 0 [97] 0 [(500, 0)] 501; Copying 502 [98] 0 [(700, 0)] 701]. split; [discriminate|]. split; [repeat constructor|].
  cbn. intuition congruence.
Qed.
(** "... says so once": once for every empty file after the last other one, too. *)
Theorem C76_refuted_once : exists js, Forall adds_up js /\
  permanent (tl (snd (calls total_only ((0, FileStats 3 0 0 0 10 0 0 0 0 0) :: flat_map job_calls js) (fresh 0)))) =
  [mkp (LTotal 10 10) true; mkp (LTotal 10 10) true; mkp (LTotal 10 10) true].
Proof.
  exists [Copying 0 [97] 10 [(500, 10)] 501; Copying 502 [98] 0 [(503, 0)] 504; Copying 505 [99] 0 [(506, 0)] 507].
  split; [repeat constructor|reflexivity].
Qed.
(** "... also with --dry-run": for the files to be copied nothing is reported there, :634-635,
    so that the total stays at 0 %. *)
Theorem C76_refuted_dry_run : forall c now mi ex ma ch copy md ed xd files t0, quiet c = false -> only_total c = true -> 0 < copy ->
  permanent (tl (snd (calls c ((now, FileStats mi ex ma ch copy 0 0 md ed xd) ::
     flat_map (fun f => [(fst f, StartCopy (fst (snd f)) (snd (snd f))); (fst f, Finish)]) files) (fresh t0)))) = [].
Proof.
  intros c now mi ex ma ch copy md ed xd files t0 Q V L. cbn [calls]. destruct (do_call c now _ (fresh t0)) as (t1, o1) eqn:E.
  assert (E1 : total_curr t1 = 0 /\ total_all t1 = copy).
  { cbn in E. injection E as <- <-. unfold total_curr, total_all. cbn -[N.add N.div]. change (0 / kSigFactor) with 0. lia. }
  clear E. remember (flat_map _ files) as l eqn:El.
  enough (G : permanent (snd (calls c l t1)) = []).
  { destruct (calls c l t1). exact G. }
  subst l. clear o1 now. revert t1 E1. induction files as [|[n [p sz]] files IH]; intros t1 E1; [reflexivity|].
  cbn [flat_map fst snd app calls]. destruct t1 as [m ff df p0 sz0 cc ac tc cs as_ ts ss cd ad td fd tfd dd tdd pt]. cbn [do_call].
  match goal with |- context [update_output ?c ?n ?f ?x] =>
    assert (U : total_curr x = 0 /\ total_all x = copy) by exact E1;
    assert (X : update_output c n f x = (x, []) \/ update_output c n f x = (set_timer x n, [mkp (LTotal 0 (N.max 1 copy)) false])) end.
  { unfold update_output. destruct U as (U1 & U2). rewrite Q, V, U1, U2. cbn [ModelProgress.t_mode andb].
    unfold progress, is_one. cbn [fst snd]. replace (N.min 0 (N.max 1 copy)) with 0 by lia. replace (0 =? N.max 1 copy) with false by lia. cbn [andb negb].
    match goal with |- context [if ?x then _ else _] => destruct x end; [left; reflexivity|right; reflexivity]. }
  destruct X as [X|X]; rewrite X; cbn [snd fst];
    (match goal with |- context [calls c _ ?x] => specialize (IH x ltac:(exact U)); destruct (calls c _ x) as (t2, o2) end;
     unfold permanent in *; cbn [snd concat app filter p_newline] in *; exact IH).
Qed.
(** "A JSON line replaces the one before": it is printed for a console of width 0, :496-503. *)
Theorem C76_refuted_json_line : overwrite [123; 49; 50; 125] (removelast (console false true [123; 125] false 0)) = [123; 125; 50; 125].
Proof. reflexivity. Qed.
