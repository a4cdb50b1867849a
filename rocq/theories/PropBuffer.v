(** C80: buffers behave like vectors of bytes. *)
From Verif Require Import Base ListX SpecBuffer ModelBuffer ProofBuffer.
Local Open Scope N_scope.

(** ** Vectors *)
(** After every legal history, without undefined behaviour, every buffer has the size of its
    vector and holds it, whatever was done to the other buffers. *)
Theorem C80_vectors : forall avail h, legal avail h -> exists s, run avail h = Ok s /\
  forall i, size (bufs s i) = N.of_nat (length (vectors h i)) /\ agrees (vectors h i) (contents s i).
Proof.
  intros avail h L. destruct (run_R avail h L) as (s & E & _ & H). exists s. split; [exact E|]. intro i. destruct (H i) as (H1 & _ & H2).
  split; [exact H1|]. rewrite contents_block, H1, Nat2N.id. exact H2.
Qed.
(** There is always room for what a buffer holds, and the room is allocated. *)
Theorem C80_capacity : forall avail h s i, legal avail h -> run avail h = Ok s ->
  size (bufs s i) <= capacity (bufs s i) /\
  (0 < capacity (bufs s i) -> exists p m, data (bufs s i) = Some p /\ heap s p = Some m /\ N.of_nat (length m) = capacity (bufs s i)).
Proof.
  intros avail h s i L E. destruct (run_R avail h L) as (s' & E' & I & H). assert (s' = s) by congruence. subst s'. destruct (H i) as (_ & H1 & _).
  split; [exact H1|]. intro Hc. destruct (data (bufs s i)) as [p|] eqn:Ed.
  - destruct (i_live s I i p Ed) as (_ & m & Em & Hm). exists p, m. auto.
  - rewrite (i_null s I i Ed) in Hc. lia.
Qed.
(** == is equality of vectors whose bytes were written. *)
Theorem C80_equal : forall avail h s i j x y, legal avail h -> run avail h = Ok s ->
  vectors h i = map Some x -> vectors h j = map Some y -> exists r, equal s i j = Ok r /\ (r = true <-> x = y).
Proof.
  intros avail h s i j x y L E Ei Ej. destruct (C80_vectors avail h L) as (s' & E' & H). assert (s' = s) by congruence. subst s'.
  destruct (H i) as [Hi1 Hi2]. destruct (H j) as [Hj1 Hj2]. rewrite Ei in Hi1, Hi2. rewrite Ej in Hj1, Hj2.
  apply agrees_some in Hi2, Hj2. unfold equal. rewrite Hi1, Hj1, Hi2, Hj2, !map_length, !N.eqb_refl.
  destruct (N.eqb_spec (N.of_nat (length x)) (N.of_nat (length y))) as [El|El].
  - apply compare_spec. lia.
  - exists false. split; [reflexivity|]. split; [discriminate|]. intros ->. destruct El. reflexivity.
Qed.
(** Vectors of different sizes are never equal, even if their bytes were not written. *)
Theorem C80_equal_sizes : forall avail h s i j, legal avail h -> run avail h = Ok s ->
  length (vectors h i) <> length (vectors h j) -> equal s i j = Ok false.
Proof.
  intros avail h s i j L E Hn. destruct (C80_vectors avail h L) as (s' & E' & H). assert (s' = s) by congruence. subst s'.
  destruct (H i) as [Hi1 _]. destruct (H j) as [Hj1 _]. unfold equal. rewrite Hi1, Hj1.
  destruct (N.eqb_spec (N.of_nat (length (vectors h i))) (N.of_nat (length (vectors h j)))) as [El|El]; [lia|reflexivity].
Qed.

(** ** Memory *)
(** No block has two owners, and none is lost. *)
Theorem C80_ownership : forall avail h s, legal avail h -> run avail h = Ok s ->
  (forall i j p, data (bufs s i) = Some p -> data (bufs s j) = Some p -> i = j) /\
  (forall p, heap s p <> None <-> exists i, data (bufs s i) = Some p).
Proof.
  intros avail h s L E. destruct (run_R avail h L) as (s' & E' & I & _). assert (s' = s) by congruence. subst s'. split; [exact (i_own s I)|].
  intro p. split; [intro Hp; apply (i_leak s I p Hp)|]. intros (i & Hi). destruct (i_live s I i p Hi) as (_ & m & -> & _). discriminate.
Qed.
(** All memory is given back when all buffers are gone. *)
Theorem C80_no_leak : forall avail h is, legal avail h ->
  (forall c k, In c h -> about c k -> In k is) ->
  exists s, run avail (h ++ map Destroy is) = Ok s /\ forall p, heap s p = None.
Proof.
  intros avail h is L Hk.
  assert (L' : legal avail (h ++ map Destroy is)).
  { clear Hk. revert L. pattern is. apply rev_ind; clear is.
    - rewrite app_nil_r. auto.
    - intros i is IH L. rewrite map_app, app_assoc. cbn [map]. intros h1 c h2 E. destruct h2 as [|d h2 _] using rev_ind.
      + apply app_inj_tail in E. destruct E as [_ <-]. exact I.
      + rewrite app_comm_cons, app_assoc in E. apply app_inj_tail in E. destruct E as [E _]. apply (IH L h1 c h2 E). }
  destruct (run_R avail _ L') as (s & E & I & _). exists s. split; [exact E|]. intro p. destruct (heap s p) as [m|] eqn:Ep; [|reflexivity]. exfalso.
  destruct (i_leak s I p) as (_ & k & Hd); [congruence|].
  unfold run in E. rewrite run_from_app in E. destruct (run_from avail start h) as [s1| | |] eqn:E1; try discriminate. cbn [bind] in E.
  rewrite (run_destroyed avail is s1 s E k) in Hd; [discriminate|].
  destruct (in_dec Nat.eq_dec k is) as [Hin|Hout]; [left; exact Hin|right].
  rewrite (run_untouched avail h k start s1 E1); [reflexivity|]. intros c Hc Ha. apply Hout. apply (Hk c k Hc Ha).
Qed.
(** Pointers into a buffer stay valid while its size stays within the capacity. *)
Theorem C80_stable : forall avail h c s s' i, run avail h = Ok s -> run avail (h ++ [c]) = Ok s' -> legal avail (h ++ [c]) ->
  match c with
  | Construct j _ | Destroy j => j <> i
  | Move j k => j <> i /\ k <> i
  | Reserve j n => j = i -> n <= capacity (bufs s i)
  | _ => N.of_nat (length (vectors (h ++ [c]) i)) <= capacity (bufs s i)
  end -> data (bufs s' i) = data (bufs s i) /\ capacity (bufs s' i) = capacity (bufs s i).
Proof.
  intros avail h c s s' i E E' L Hc.
  assert (Lh : legal avail h). { intros h1 d h2 Eh. apply (L h1 d (h2 ++ [c])). rewrite Eh, <- app_assoc. reflexivity. }
  destruct (run_R avail h Lh) as (s1 & E1 & HR). assert (s1 = s) by congruence. subst s1.
  pose proof (L h c [] eq_refl) as Lc. destruct HR as [_ G]. destruct (G i) as (Gs & _ & _).
  unfold run in E, E'. rewrite run_from_app, E in E'. cbn [bind run_from] in E'. destruct (step avail s c) as [s2| | |] eqn:Es; try discriminate.
  cbn [bind] in E'. injection E' as ->. unfold vectors in Hc, Lc. rewrite ?fold_left_app in Hc. cbn [fold_left] in Hc. fold (vectors h) in *.
  destruct c; cbn [vector_call legal_call] in *; try (destruct (Nat.eq_dec i i0) as [<-|Hi]; [|rewrite (step_frame _ _ _ _ _ Es) by exact Hi; auto]).
  - congruence.
  - congruence.
  - cbn [step] in Es. unfold set_vector in Hc. rewrite Nat.eqb_refl in Hc. unfold resized in Hc. rewrite app_length, firstn_length, repeat_length in Hc.
    apply resize_next in Es. destruct Es as [(_ & H1 & H2 & _)|(Hx & _)]; [auto|lia].
  - cbn [step] in Es. unfold reserve in Es. destruct (N.ltb_spec (capacity (bufs s i)) n); [specialize (Hc eq_refl); lia|]. injection Es as <-. auto.
  - injection Es as <-. rewrite bufs_set, Nat.eqb_refl. auto.
  - cbn [step] in Es. unfold set_vector in Hc. rewrite Nat.eqb_refl, app_length, map_length in Hc. unfold append, wrap in Es.
    rewrite Gs, N.mod_small in Es by (destruct Lc; lia). destruct (resize _ _ _ _) as [s1| | |] eqn:Er; try discriminate. cbn [bind] in Es.
    apply put_frame in Es. destruct Es as [-> _]. apply resize_next in Er. destruct Er as [(_ & H1 & H2 & _)|(Hx & _)]; [auto|lia].
  - cbn [step] in Es. apply put_frame in Es. destruct Es as [-> _]. auto.
  - destruct Hc as [H1 H2]. rewrite (step_frame _ _ _ _ _ Es); [auto|]. cbn [about]. intuition congruence.
Qed.
(** However a single buffer is filled, the number of allocations is logarithmic in its capacity. *)
Theorem C80_allocations : forall avail h s, legal avail h -> run avail h = Ok s ->
  (forall c, In c h -> match c with Resize 0 _ | Clear 0 | Append 0 _ | Write 0 _ _ => True | _ => False end) ->
  2 * 3 ^ N.of_nat (next s) <= 2 ^ N.of_nat (next s) * (capacity (bufs s 0%nat) + 2).
Proof.
  intros avail h s L E Hc. change (growth s). revert s L E Hc. pattern h. apply rev_ind; clear h.
  - intros s _ E _. injection E as <-. unfold growth. cbn. lia.
  - intros c h IH s L E Hc. assert (Lh : legal avail h). { intros h1 d h2 Eh. apply (L h1 d (h2 ++ [c])). rewrite Eh, <- app_assoc. reflexivity. }
    destruct (run_R avail h Lh) as (s1 & E1 & HR). specialize (IH s1 Lh E1 ltac:(intros d Hd; apply Hc; apply in_or_app; left; exact Hd)).
    unfold run in E, E1. rewrite run_from_app, E1 in E. cbn [bind run_from] in E. destruct (step avail s1 c) as [s2| | |] eqn:Es; try discriminate.
    cbn [bind] in E. injection E as ->. specialize (Hc c ltac:(apply in_or_app; right; left; reflexivity)). pose proof (L h c [] eq_refl) as Lc. fold (vectors h) in *.
    destruct HR as [_ G]. destruct (G 0%nat) as (Gs & _ & _).
    destruct c as [i n|i|i n|i n|i|i l|i off l|i j]; try (destruct Hc; fail); destruct i as [|i]; try (destruct Hc; fail); cbn [step legal_call] in *.
    + apply (growth_resize avail s1 n s Lc IH Es).
    + injection Es as <-. exact IH.
    + unfold append, wrap in Es. rewrite Gs, N.mod_small in Es by (destruct Lc; lia). destruct (resize _ _ _ _) as [s3| | |] eqn:Er; try discriminate. cbn [bind] in Es.
      apply put_frame in Es. destruct Es as [E2 E3]. unfold growth. rewrite E2, E3. apply (growth_resize avail s1 _ s3 Lc IH Er).
    + apply put_frame in Es. destruct Es as [E2 E3]. unfold growth. rewrite E2, E3. exact IH.
Qed.

(** ** Claims that do not hold *)
(** Claimed: an append that does not fit into memory is reported, and one that does fit succeeds.
    Refuted: half as much again is asked for, and the null pointer is written to. *)
Theorem C80_refuted_out_of_memory : exists avail h,
  (forall i, N.of_nat (length (vectors h i)) <= avail) /\ run avail h = UB.
Proof.
  exists 10, [Append 0 [1; 2; 3; 4]; Append 0 [5; 6; 7; 8]]. split; [|reflexivity].
  intro i. cbn. unfold set_vector. cbn. destruct (Nat.eqb i 0); cbn; lia.
Qed.
(** Claimed: after resize(n) the capacity is at least n. Refuted: the capacity wraps around for
    n > 2/3 of the address space, even if memory were unlimited. *)
Theorem C80_refuted_huge : exists n, n < 2 ^ 64 /\ forall avail s, run avail [Resize 0 n] = Ok s ->
  size (bufs s 0%nat) = n /\ capacity (bufs s 0%nat) < n.
Proof.
  exists ((2 ^ 65 + 1) / 3). split; [reflexivity|]. intros avail s E. unfold run in E. cbn [run_from step] in E. unfold resize in E.
  change (capacity (bufs start 0) <? (2 ^ 65 + 1) / 3) with true in E. cbv iota in E.
  destruct (realloc _ _ _ _) as [[s1 p]| | |]; try discriminate. cbn [bind] in E. injection E as <-. cbn [set_buffer bufs Nat.eqb size capacity].
  split; reflexivity.
Qed.
(** Claimed: the bytes that resize adds are zero. Refuted: they are what was there before. *)
Theorem C80_refuted_zeroed : exists avail h s, legal avail h /\ run avail h = Ok s /\
  h = [Append 0 [7; 8]; Clear 0; Resize 0 2] /\ contents s 0%nat = [Some 7; Some 8] /\ vectors h 0%nat = [None; None].
Proof.
  exists 10. eexists. eexists. split; [|split; [|split; [reflexivity|]]].
  2: reflexivity.
  2: split; reflexivity.
  intros h1 c h2 E. destruct h1 as [|? [|? [|? [|? h1]]]]; try discriminate E; injection E; intros; subst; cbn; unfold fits; cbn; try (split; [reflexivity|lia]); exact I.
Qed.

(** ** Examples *)
Definition history : list call :=
  [Append 0 [1; 2; 3]; Reserve 0 20; Append 0 [4; 5]; Construct 1 2; Write 1 0 [8; 9]; Move 2 0; Move 1 1; Append 0 [6]; Resize 2 2].
Example C80_example_legal : legal 100 history.
Proof.
  unfold history. intros h1 c h2 E.
  destruct h1 as [|? [|? [|? [|? [|? [|? [|? [|? [|? [|? h1]]]]]]]]]]; try discriminate E; injection E; intros; subst; cbn [legal_call]; first [exact I | apply Nat.leb_le; reflexivity | apply N.leb_le; reflexivity | split; [reflexivity|apply N.leb_le; reflexivity]].
Qed.
Example C80_example_run : exists s, run 100 history = Ok s /\ contents s 2%nat = [Some 1; Some 2] /\ contents s 1%nat = [] /\
  contents s 0%nat = [Some 6] /\ capacity (bufs s 2%nat) = 20 /\ equal s 2 0 = Ok false.
Proof. eexists. split; [vm_compute; reflexivity|]. vm_compute. repeat split. Qed.
Example C80_example_pointer : exists s s', run 100 (firstn 2 history) = Ok s /\ run 100 (firstn 3 history) = Ok s' /\ data (bufs s' 0%nat) = data (bufs s 0%nat) /\ data (bufs s 0%nat) <> None.
Proof. eexists. eexists. split; [vm_compute; reflexivity|]. split; [vm_compute; reflexivity|]. vm_compute. split; [reflexivity|discriminate]. Qed.
Example C80_example_allocations : exists s, run 1000 (map (fun k => Append 0 [k]) (map N.of_nat (seq 0 40))) = Ok s /\ next s = 8%nat /\ capacity (bufs s 0%nat) = 60.
Proof. eexists. split; [vm_compute; reflexivity|]. vm_compute. split; reflexivity. Qed.
