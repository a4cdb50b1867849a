(** C77: what the streaming statistics display shows. *)
From Verif Require Import Base ListX ModelStats SpecStats ProofStats.

(** Recording and printing are defined exactly if every record is about a registered file and
    one of its chunks. *)
Theorem C77_defined : forall l, (exists s, run l empty = Ok s) <-> registered l.
Proof. exact run_ok_iff. Qed.
Theorem C77_otherwise_undefined : forall l, run l empty = UB <-> ~ registered l.
Proof.
  intro l. rewrite <- run_ok_iff. destruct (run_not_other l empty) as [[s E]|E]; rewrite E.
  - split; [discriminate|intros []; eauto].
  - split; [intros _ [s H]; discriminate|reflexivity].
Qed.

(** At most 32 files are shown, none twice, only files of which a chunk was recorded since
    Clear, and always the one recorded last. *)
Theorem C77_recent : forall l s, run l empty = Ok s ->
  length (recent s) <= 32 /\ NoDup (recent s) /\
  (forall p, In p (recent s) -> In p (paths (since l))) /\
  (forall p q, paths (since l) = q ++ [p] -> In p (recent s)).
Proof. intros l s E. apply good_run in E. destruct E as ((H1 & H2 & H3 & H4 & _) & _). auto. Qed.
(** As long as no more than 32 files were recorded they are all shown, in the order in which
    they were first recorded. *)
Theorem C77_all_shown : forall l s, run l empty = Ok s ->
  let d := firsts_bytes (paths (since l)) in length d <= 32 -> recent s = d.
Proof. intros l s E d. apply good_run in E. destruct E as ((_ & _ & _ & _ & H) & _). exact H. Qed.

(** The totals are the sums of what was recorded since Clear. *)
Theorem C77_totals : forall l s, run l empty = Ok s ->
  total_streamed s = sum (streamed_sizes (since l)) /\ total_cached s = sum (cached_sizes (since l)).
Proof. intros l s E. apply good_run in E. apply E. Qed.

(** Threads have the numbers 0, 1, ... in the order of their first records; two of the first
    36 threads have different colours. *)
Theorem C77_thread_numbers : forall l s t k, run l empty = Ok s ->
  (thread_color t (colors s) = Some k <-> nth_error (firsts_N (threads_in (since l))) k = Some t).
Proof. intros l s t k E. apply good_run in E. destruct E as (_ & [_ H] & _). apply H. Qed.
Theorem C77_colours_differ : forall s t1 t2 i1 i2 a b, a < 36 -> b < 36 -> a <> b ->
  thread_color t1 (colors s) = Some a -> thread_color t2 (colors s) = Some b ->
  show s (mkch Streamed t1 i1) <> show s (mkch Streamed t2 i2).
Proof.
  intros s t1 t2 i1 i2 a b Ha Hb Hab H1 H2. unfold show. cbn [c_state c_thread]. rewrite H1, H2. unfold kNumBgColors, kNumFgColors. intro E.
  pose proof (f_equal (fun c => match c with X u _ => u | _ => 0 end) E) as E1. pose proof (f_equal (fun c => match c with X _ u => u | _ => 0 end) E) as E2.
  cbv beta iota in E1, E2. clear E.
  rewrite (Nat.mod_small (a / 12) 3) in E2 by (apply Nat.div_lt_upper_bound; lia).
  rewrite (Nat.mod_small (b / 12) 3) in E2 by (apply Nat.div_lt_upper_bound; lia).
  pose proof (Nat.div_mod a 12 ltac:(lia)). pose proof (Nat.div_mod b 12 ltac:(lia)). lia.
Qed.

(** A chunk has the state, the thread and the time of the last record about it since Clear, if
    the file is always registered with the same number of chunks. *)
Theorem C77_chunks : forall l s p n, run l empty = Ok s -> 0 < n -> one_size p n (since l) ->
  forall i x, nth_error (chunks_of p s) i = Some x -> x = last_said p i (since l).
Proof. intros. eapply chunks_said; eauto. Qed.
Theorem C77_as_many_as_registered : forall l s p, run l empty = Ok s -> length (chunks_of p s) = size_of p (since l).
Proof. intros l s p E. apply good_run in E. apply E. Qed.

(** Every chunk is in the group of exactly one character. *)
Theorem C77_groups : forall m w i, w <= m -> 0 < w -> i < m -> exists n, n < w /\ in_group m w n i /\ forall k, in_group m w k i -> k = n.
Proof.
  intros m w i Hw H0 Hi. destruct (group_exists m w i H0 Hi) as [n [Hn Hg]]. exists n. split; [exact Hn|]. split; [exact Hg|].
  intros k Hk. eapply group_unique; eauto.
Qed.

(** Print never reads past a file's chunks, whatever was recorded, and prints one line per
    recent file: its short name, blanks up to a common column, one character per chunk or as
    many as fit, and blanks. Each character stands for the chunk of its group that was
    recorded last. *)
Theorem C77_print : forall s width, 36 <= width -> exists ls column, print_files s width = Ok ls /\ column <= 34 /\
  Forall2 (fun p line =>
    let m := length (chunks_of p s) in
    let w := Nat.min m (width - column) in
    exists cells,
      length (short_name p) < column /\
      line = map Char (short_name p) ++ repeat (Char 32%N) (column - length (short_name p)) ++ cells ++ repeat (Char 32%N) (width + 1 - column - w) /\
      length cells = w /\
      forall n, n < w -> exists i x,
        nth_error cells n = Some (show s x) /\ nth_error (chunks_of p s) i = Some x /\ in_group m w n i /\
        forall j y, in_group m w n j -> nth_error (chunks_of p s) j = Some y -> (c_time y <= c_time x)%N)
    (recent s) ls.
Proof.
  intros s width Hw. unfold print_files.
  replace (Nat.ltb width (kMaxFilenameSize + 4)) with false by (symmetry; apply Nat.ltb_ge; unfold kMaxFilenameSize; lia).
  set (k := fold_right (fun p m => Nat.max (length (short_name p)) m) 0 (recent s)).
  assert (Hk : k <= 33) by (apply (max_le (fun p => length (short_name p))); apply short_name_length).
  destruct (collect_ok (file_line s width k) (fun p line =>
    let m := length (chunks_of p s) in
    let w := Nat.min m (width - (k + 1)) in
    exists cells,
      length (short_name p) < k + 1 /\
      line = map Char (short_name p) ++ repeat (Char 32%N) (k + 1 - length (short_name p)) ++ cells ++ repeat (Char 32%N) (width + 1 - (k + 1) - w) /\
      length cells = w /\
      forall n, n < w -> exists i x,
        nth_error cells n = Some (show s x) /\ nth_error (chunks_of p s) i = Some x /\ in_group m w n i /\
        forall j y, in_group m w n j -> nth_error (chunks_of p s) j = Some y -> (c_time y <= c_time x)%N) (recent s)) as [ls [El HF]].
  { intros p Hp. pose proof (max_bound (fun p => length (short_name p)) (recent s) p Hp) as Hle. cbv beta in Hle. fold k in Hle.
    destruct (file_line_spec s width k p Hle ltac:(lia)) as (cells & E & Hl & Hn).
    eexists. split; [exact E|]. cbv zeta. exists cells. split; [lia|]. split; [|split; [exact Hl|exact Hn]].
    do 4 f_equal. lia. }
  exists ls, (k + 1). split; [exact El|]. split; [lia|exact HF].
Qed.

(** A console with less than 36 columns has no room for the longest name: nothing is printed. *)
Theorem C77_narrow : forall s width, print_files s width = Ok [] <-> (width < 36 \/ recent s = []).
Proof.
  intros s width. destruct (Nat.lt_ge_cases width 36) as [H|H].
  - unfold print_files. replace (Nat.ltb width (kMaxFilenameSize + 4)) with true; [tauto|]. symmetry. apply Nat.ltb_lt. unfold kMaxFilenameSize. lia.
  - destruct (C77_print s width H) as (ls & column & -> & _ & HF). split.
    + intro E. injection E as ->. inversion HF. right. reflexivity.
    + intros [E|E]; [lia|]. rewrite E in HF. inversion HF. reflexivity.
Qed.

(** Every line is one cell wider than |width|: as wide as the console where GetConsoleWidth
    returns the last column (Windows), so that nothing is left of the line it overwrites. *)
Theorem C77_line_width : forall s width ls, 36 <= width -> print_files s width = Ok ls ->
  Forall (fun line => length line = width + 1) ls.
Proof.
  intros s width ls Hw E. destruct (C77_print s width Hw) as (ls' & column & E' & Hc & HF). rewrite E' in E. injection E as <-.
  clear E'. induction HF as [|p line r ls H HF IH]; [constructor|]. constructor; [|exact IH].
  destruct H as (cells & H1 & -> & H2 & _). rewrite !app_length, map_length, !repeat_length, H2. lia.
Qed.

(** If all chunks fit, the n-th character is the n-th chunk. *)
Theorem C77_one_character_per_chunk : forall s c n, n < length c -> exists x, nth_error c n = Some x /\ (do y <- pick c n (length c); Ok (show s y)) = Ok (show s x).
Proof.
  intros s c n Hn. destruct (pick_spec c n (length c) Hn (le_n _)) as (i & x & E & Hi & [G1 G2] & _).
  rewrite Nat.div_mul in G1, G2 by lia. assert (i = n) by lia. subst i. exists x. split; [exact Hi|]. rewrite E. reflexivity.
Qed.

(** '-' stands exactly for groups of which nothing is loaded. *)
Theorem C77_dash : forall l s p w n x, clock_set l -> run l empty = Ok s ->
  let c := chunks_of p s in n < w -> w <= length c -> pick c n w = Ok x ->
  (show s x = Dash <-> forall i y, in_group (length c) w n i -> nth_error c i = Some y -> c_state y = NotLoaded).
Proof.
  intros l s p w n x Hc E c Hn Hw Hp. pose proof (timed_run l s Hc E p) as Ht. fold c in Ht. rewrite Forall_forall in Ht.
  destruct (pick_spec c n w Hn Hw) as (i & x' & E' & Hi & Hg & Hm). rewrite E' in Hp. injection Hp as ->.
  assert (Hs : show s x = Dash <-> c_state x = NotLoaded) by (unfold show; destruct (c_state x); split; congruence).
  rewrite Hs. split.
  - intros H j y Hj Hy. apply (Ht y (nth_error_In _ _ Hy)). apply (Ht x (nth_error_In _ _ Hi)) in H. specialize (Hm j y Hj Hy). lia.
  - intro H. apply (H i x Hg Hi).
Qed.

(** ** Claims that are false *)
Definition name (n : nat) : bytes := [97; N.of_nat n]%N.
Definition registrations : list event := map (fun n => Init (name n) 1) (seq 0 33).
(** "LRU access list" (stats_printer.h:118): the list goes by the first access. A file that was
    accessed before each of 32 others is gone, the 32 others are there. *)
Theorem C77_refuted_lru : exists l s, run l empty = Ok s /\
  (exists q, paths (since l) = q ++ [name 0; name 32]) /\ ~ In (name 0) (recent s) /\ In (name 1) (recent s) /\
  count_occ (list_eq_dec N.eq_dec) (paths (since l)) (name 1) = 1 /\ count_occ (list_eq_dec N.eq_dec) (paths (since l)) (name 0) = 32.
Proof.
  exists (registrations ++ flat_map (fun n => [RecCached (N.of_nat (2 * n)) (name 0) 0 1; RecCached (N.of_nat (2 * n + 1)) (name n) 0 1]%N) (seq 1 32)).
  eexists. split; [vm_compute; reflexivity|]. split; [|split; [|split; [|split]]].
  - eexists (firstn 62 (flat_map (fun n => [name 0; name n]) (seq 1 32))). vm_compute. reflexivity.
  - intro H. apply add_recent_in in H. vm_compute in H. discriminate.
  - apply add_recent_in. vm_compute. reflexivity.
  - vm_compute. reflexivity.
  - vm_compute. reflexivity.
Qed.
(** "shortened to |kMaxFilenameSize| characters" (stats_printer.cc:110): it is one more. *)
Theorem C77_refuted_name_size : exists p, length (short_name p) = 33.
Proof. exists (repeat 97%N 40). vm_compute. reflexivity. Qed.
Theorem C77_name_size : forall p, length (short_name p) <= 33.
Proof. exact short_name_length. Qed.
(** "Asserts that the file was registered" (stats_printer.h:67): nothing is checked. *)
Theorem C77_refuted_assert : exists p, run [RecCached 1 p 0 1] empty = UB.
Proof. exists [97%N]. vm_compute. reflexivity. Qed.
(** A file that is registered again, with as many chunks as before but other contents, has the
    chunks of the old one: nothing was recorded since, yet a chunk counts as loaded. *)
Theorem C77_refuted_registered_again : exists p s, run [Init p 1; RecCached 1 p 0 1; Init p 1] empty = Ok s /\
  (exists x, nth_error (chunks_of p s) 0 = Some x /\ show s x = C).
Proof. exists [97%N]. eexists. split; [vm_compute; reflexivity|]. eexists. split; vm_compute; reflexivity. Qed.

(** ** Examples *)
Definition ex_events : list event :=
  [Init (name 1) 3; RecCached 1 (name 1) 0 7; Clear; Init (name 1) 3; Init (name 2) 5;
   RecStreamed 2 (name 1) 1 10 77; RecCached 3 (name 2) 4 20; RecStreamed 4 (name 1) 2 30 78]%N.
Example C77_example_registered : registered ex_events.
Proof. apply run_ok_iff. eexists. vm_compute. reflexivity. Qed.
Example C77_example_clock : clock_set ex_events.
Proof. unfold clock_set, ex_events. repeat constructor. Qed.
Example C77_example_one_size : one_size (name 1) 3 (since ex_events).
Proof.
  unfold one_size, ex_events. cbn [since existsb is_clear orb]. constructor; [reflexivity|].
  constructor; [intro E; vm_compute in E; discriminate E|]. repeat constructor.
Qed.
Example C77_example_print : exists s, run ex_events empty = Ok s /\
  print_files s 36 = Ok [
    map Char [97; 1; 32]%N ++ [Dash; X 0 0; X 1 0] ++ repeat (Char 32%N) 31;
    map Char [97; 2; 32]%N ++ [Dash; Dash; Dash; Dash; C] ++ repeat (Char 32%N) 29].
Proof. eexists. split; vm_compute; reflexivity. Qed.
(** 66 chunks in 33 characters. *)
Example C77_example_groups : exists s, run [Init (name 1) 66; RecCached 1 (name 1) 3 1; RecStreamed 2 (name 1) 2 1 5]%N empty = Ok s /\
  exists rest, print_files s 36 = Ok [map Char [97; 1; 32]%N ++ [Dash; X 0 0; Dash] ++ rest].
Proof. eexists. split; [vm_compute; reflexivity|]. eexists. vm_compute. reflexivity. Qed.
