(** * C74: what a source argument stands for and how it is cut for the server *)
From Verif Require Import Base ListX Str ModelPath ModelSource SpecSource ProofSource.
From Verif Require SpecPath SpecBatch ModelBatch ProofPath.
Local Open Scope N_scope.
Local Notation str := (list N).

(** The search calls the handler once for everything the source stands for, and for
    nothing else. *)
Theorem C74_search : forall matches recursive isdir list_dir full d n,
  full <> [] -> dir_and_name full d n ->
  (forall x, matches [42] x = true) -> (forall x, matches [] x = false) ->
  (isdir full = true -> ~ In 42 n) ->
  wgood_names (list_dir d) ->
  exists l,
    (forall A (h : A -> str -> str -> Z -> N -> bool -> outcome (A * bool)) s,
       search_files h matches recursive isdir list_dir full s = make_calls h l s) /\
    (forall c, In c l <->
       exists p y nd, below (list_dir d) (p ++ [y]) nd /\ wanted matches recursive (isdir full) d n p y /\ c = call_of d p y nd) /\
    (wdistinct (list_dir d) ->
     (recursive = true -> In 42 n -> n <> [42] -> no_directory_matches matches n (list_dir d)) -> once l).
Proof.
  intros matches recursive isdir list_dir full d n Hf Hdn Hstar Hnil Hdir Hg.
  destruct (up_to_spec _ _ _ Hdn) as (Eu & Es).
  pose proof (wgood_dots _ Hg) as Hd.
  assert (S2 : forall pat, second pat = true <-> (pat <> [42] /\ In 42 pat)).
  { intros pat. unfold second, is_star, has_star, star. rewrite Bool.andb_true_iff, Bool.negb_true_iff. split; intros [A B]; split.
    - intros ->. discriminate.
    - apply existsb_exists in B. destruct B as (x & I & E). apply N.eqb_eq in E. now subst.
    - destruct (seqb pat [42]) eqn:E; [|reflexivity]. destruct (seqb_spec pat [42]); [contradiction|discriminate].
    - apply existsb_exists. exists 42. split; [exact B|reflexivity]. }
  assert (Hex : forall m, existsb (N.eqb 42) m = true <-> In 42 m).
  { intros m. rewrite existsb_exists. split; [intros (x & I & E); apply N.eqb_eq in E; now subst|intros I; exists 42; split; [exact I|reflexivity]]. }
  assert (S42 : second [star] = false) by reflexivity.
  unfold search_files. destruct (isdir full) eqn:Ei.
  - specialize (Hdir eq_refl). destruct recursive.
    + cbn [negb]. pose proof Hdn as (E & Hn & Hdd).
      destruct n as [|n0 n1].
      * rewrite app_nil_r in E. subst full.
        destruct Hdd as [->|[d' Ed]]; [contradiction|].
        assert (El : last_char d = Some 92) by (rewrite Ed; apply ProofPath.last_char_snoc).
        rewrite El. change (92 =? backslash) with true. cbv iota.
        exists (wcalls matches true (list_dir d) d [star] false). split; [intros A h s; apply search_win_calls|].
        unfold wcalls. cbn [negb andb]. rewrite S42, app_nil_r. split.
        -- intros c. rewrite calls1_in by (try assumption; reflexivity). unfold wanted. split.
           ++ intros (p & y & nd & B & -> & _). exists p, y, nd. split; [exact B|]. auto.
           ++ intros (p & y & nd & B & _ & ->). exists p, y, nd. split; [exact B|]. split; [reflexivity|]. split; [|auto].
              destruct (p ++ [y]) as [|x r]; [exact Logic.I|]. split; [apply Hstar|]. apply Forall_forall. intros z _. apply Hstar.
        -- intros Hw _. rewrite once_eq. apply calls1_once; auto.
      * assert (El : match last_char full with Some c => c =? backslash | None => false end = false).
        { destruct (exists_last (l := n0 :: n1)) as (m & z & Em); [discriminate|]. rewrite E, Em, app_assoc, ProofPath.last_char_snoc.
          apply N.eqb_neq. intros X. apply Hn. rewrite Em. apply in_or_app. right. left. exact X. }
        rewrite El. cbv zeta. rewrite Eu, Es.
        exists (wcalls matches true (list_dir d) d (n0 :: n1) true). split; [intros A h s; apply search_win_calls|].
        assert (S0 : second (n0 :: n1) = false).
        { destruct (second (n0 :: n1)) eqn:X; [|reflexivity]. apply S2 in X. destruct X. contradiction. }
        unfold wcalls. cbn [negb andb]. rewrite S0, app_nil_r. split.
        -- intros c. rewrite calls1_in by (try assumption; reflexivity). unfold wanted. split.
           ++ intros (p & y & nd & B & -> & Pm & _). exists p, y, nd. split; [exact B|]. split; [|reflexivity]. split; [reflexivity|]. right.
              destruct (p ++ [y]) as [|x r] eqn:X; [destruct p; discriminate|]. exists x, r. destruct Pm. auto.
           ++ intros (p & y & nd & B & (_ & [X|(x & r & X & M)]) & ->); [discriminate|]. exists p, y, nd. split; [exact B|]. split; [reflexivity|]. split; [|auto].
              rewrite X. split; [exact M|]. apply Forall_forall. intros z _. apply Hstar.
        -- intros Hw _. rewrite once_eq. apply calls1_once; auto.
    + cbn [negb]. exists []. split; [intros A h s; reflexivity|]. split; [|intros; constructor].
      intros c. split; [contradiction|]. intros (p & y & nd & _ & W & _). unfold wanted in W. destruct W. discriminate.
  - cbv zeta. rewrite Eu, Es. exists (wcalls matches recursive (list_dir d) d n false).
    split; [intros A h s; apply search_win_calls|]. unfold wcalls, wanted. destruct recursive; cbn [negb andb].
    + destruct (second n) eqn:X.
      * pose proof X as X'. apply S2 in X'. destruct X' as (X1 & X2). rewrite (proj2 (Hex n) X2). split.
        -- intros c. destruct (calls_pattern_in matches true (list_dir d) Hd eq_refl d n X c) as (I1 & I2 & I3). split.
           ++ intros I. apply in_app_or in I. destruct I as [I|I]; [apply I1 in I|apply I2 in I]; destruct I as (p & y & nd & B & -> & M);
              exists p, y, nd; auto.
           ++ intros (p & y & nd & B & [W|W] & Ec); [contradiction|]. apply in_or_app. eauto.
        -- intros Hw Hm. rewrite once_eq. apply pattern_once; auto. apply Hm; auto.
      * rewrite app_nil_r. split.
        -- intros c. rewrite calls1_in by assumption. destruct (existsb (N.eqb 42) n) eqn:Y.
           ++ assert (E42 : n = [42]).
              { destruct (list_eq_dec N.eq_dec n [42]) as [Z|Z]; [exact Z|]. apply Hex in Y. rewrite (proj2 (S2 n) (conj Z Y)) in X. discriminate. }
              rewrite E42. split; intros (p & y & nd & B & Q0); exists p, y, nd; (split; [exact B|]).
              ** destruct Q0 as (-> & _). auto.
              ** destruct Q0 as (_ & ->). split; [reflexivity|]. split; [|auto].
                 destruct (p ++ [y]) as [|x r]; [exact Logic.I|]. split; [apply Hstar|]. apply Forall_forall. intros z _. apply Hstar.
           ++ split; intros (p & y & nd & B & Q0); exists p, y, nd; (split; [exact B|]).
              ** destruct Q0 as (-> & Pm & _). split; [|reflexivity]. destruct (p ++ [y]) as [|x r]; [constructor|]. destruct Pm. now constructor.
              ** destruct Q0 as (F & ->). split; [reflexivity|]. split; [|auto]. destruct (p ++ [y]) as [|x r]; [exact Logic.I|]. inversion F. now split.
        -- intros Hw _. rewrite once_eq. apply calls1_once; auto.
    + destruct n as [|n0 n1].
      * split; [|intros; constructor]. intros c. split; [contradiction|]. intros (p & y & nd & _ & (_ & W) & _). rewrite Hnil in W. discriminate.
      * rewrite app_nil_r. split.
        -- intros c. rewrite calls1_in by (try assumption; reflexivity).
           split; intros (p & y & nd & B & Q0); exists p, y, nd; (split; [exact B|]).
           ++ destruct Q0 as (-> & Pm & [ | -> ]); [discriminate|]. destruct Pm. auto.
           ++ destruct Q0 as ((-> & M) & ->). split; [reflexivity|]. split; [|auto]. split; [exact M|constructor].
        -- intros Hw _. rewrite once_eq. apply calls1_once; auto.
Qed.

(** ** The path searched and the part removed for the server *)
Lemma name_unique p d1 n1 d2 n2 : dir_and_name p d1 n1 -> dir_and_name p d2 n2 -> d1 = d2 /\ n1 = n2.
Proof.
  intros H1 H2. destruct (up_to_spec _ _ _ H1) as (A1 & B1). destruct (up_to_spec _ _ _ H2) as (A2 & B2).
  assert (E : d1 = d2) by congruence. split; [exact E|]. subst d2. congruence.
Qed.
Lemma ends_with_spec l s : ends_with l s = true <-> exists q, l = q ++ s.
Proof.
  unfold ends_with. rewrite is_prefix_spec. split; intros [r E].
  - exists (rev r). rewrite <- (rev_involutive l), E, rev_app_distr, rev_involutive. reflexivity.
  - exists (rev r). rewrite E, rev_app_distr. reflexivity.
Qed.
Lemma special_spec p d n : dir_and_name p d n -> (special_dir p = true <-> dots n).
Proof.
  intros H. unfold special_dir. rewrite !Bool.orb_true_iff, !ends_with_spec. unfold dots.
  assert (S1 : forall u, seqb p u = true <-> p = u) by (intros u; destruct (seqb_spec p u); split; congruence).
  rewrite !S1. split.
  - intros [[[->| ->]|[q ->]]|[q ->]].
    + left. refine (proj2 (name_unique [46] d n [] [46] H _)). split; [reflexivity|]. split; [intros [|[]]; discriminate|now left].
    + right. refine (proj2 (name_unique [46; 46] d n [] [46; 46] H _)). split; [reflexivity|]. split; [intros [|[|[]]]; discriminate|now left].
    + left. refine (proj2 (name_unique _ d n (q ++ [92]) [46] H _)). split; [rewrite <- app_assoc; reflexivity|].
      split; [intros [|[]]; discriminate|right; eauto].
    + right. refine (proj2 (name_unique _ d n (q ++ [92]) [46; 46] H _)). split; [rewrite <- app_assoc; reflexivity|].
      split; [intros [|[|[]]]; discriminate|right; eauto].
  - destruct H as (E & _ & [->|[q ->]]); intros [->| ->]; cbn [app] in E.
    + auto.
    + auto.
    + left. right. exists q. rewrite E, <- app_assoc. reflexivity.
    + right. exists q. rewrite E, <- app_assoc. reflexivity.
Qed.
Lemma root_of_prefix p r : root_of p r -> drive_prefix_bs p = r.
Proof.
  intros [q H1 H2|q H1 H2|c q H1 H2|c s q H1 H2 H3 H4]; unfold drive_prefix_bs; cbv zeta.
  - rewrite drive_plain by (auto; intros r0 X; exact (H2 _ X)). cbn [length]. destruct q as [|x q]; [reflexivity|]. cbn [nth_error].
    destruct (x =? backslash) eqn:X; [|reflexivity]. apply N.eqb_eq in X. exfalso. apply (H2 q). now rewrite X.
  - rewrite drive_plain; [reflexivity| |]; intros x0; [intros y X|intros X].
    + apply (H2 y). congruence.
    + apply (H1 x0). congruence.
  - rewrite drive_letter by assumption. reflexivity.
  - rewrite drive_share by assumption.
    assert (E : 92 :: 92 :: c ++ 92 :: s ++ 92 :: q = (92 :: 92 :: c ++ 92 :: s) ++ 92 :: q).
    { cbn [app]. do 2 f_equal. rewrite <- app_assoc. reflexivity. }
    rewrite E, nth_error_app2 by lia. rewrite Nat.sub_diag. cbn [nth_error]. change (92 =? backslash) with true. cbv iota.
    cbn [app]. do 2 f_equal. rewrite <- app_assoc. reflexivity.
Qed.

(** "." and ".." mean the content of that directory; a sources directory comes in front,
    without the root of the source. *)
Theorem C74_full_source : forall source sources_dir relative full base d n,
  prepare source sources_dir relative = (full, base) ->
  dir_and_name (windows source) d n ->
  exists s, (dots n -> s = windows source ++ [92]) /\ (~ dots n -> s = windows source) /\
    (sources_dir = [] -> full = s) /\
    (forall e c r t, sources_dir = e ++ [c] -> c = 47 \/ c = 92 -> root_of s r -> s = r ++ t ->
       full = windows sources_dir ++ t).
Proof.
  intros source sd relative full base d n H Hdn. rewrite prepare_eq in H.
  assert (Ef : full = full_source (special_source source) (win_fix_seps sd)) by congruence. clear H.
  exists (special_source source). pose proof (special_spec _ _ _ Hdn) as Sp. rewrite <- fix_windows in *.
  split; [|split; [|split]].
  - intros Dn. unfold special_source. cbv zeta. rewrite (proj2 Sp Dn). unfold win_ensure_sep.
    assert (Ee : ends_with_sep (win_fix_seps source) = false).
    { destruct Hdn as (E & _). rewrite E. destruct Dn as [->| ->].
      - now rewrite ends_sep_app.
      - change [46; 46] with ([46] ++ [46]). now rewrite app_assoc, ends_sep_app. }
    now rewrite Ee.
  - intros Dn. unfold special_source. cbv zeta. destruct (special_dir _) eqn:X; [|reflexivity]. exfalso. apply Dn, Sp. reflexivity.
  - intros ->. exact Ef.
  - intros e c r t Es Hc Hr Ht.
    assert (Hs : dirlike (win_fix_seps sd)) by (apply sd_shape; right; eauto).
    rewrite Ef. unfold full_source. destruct (win_fix_seps sd) as [|s0 s1] eqn:X; [exfalso; rewrite Es in X; destruct e; discriminate|].
    rewrite <- X in *. rewrite (root_of_prefix _ _ Hr). rewrite Ht.
    rewrite skipn_app, skipn_all, Nat.sub_diag. cbn [app skipn].
    assert (En : needs_sep (win_fix_seps sd) = false).
    { destruct Hs as [Y|[q Y]]; rewrite Y; [reflexivity|]. unfold needs_sep. now rewrite ProofPath.last_char_snoc. }
    unfold win_join. rewrite En. destruct t; [now rewrite app_nil_r|reflexivity].
Qed.

(** The base directory is always a part of the directory searched, cut behind a
    separator: what is left over is the relative directory on the server. *)
Theorem C74_base_is_prefix : forall source sources_dir relative full base d n,
  prepare source sources_dir relative = (full, base) ->
  (sources_dir = [] \/ exists e c, sources_dir = e ++ [c] /\ (c = 47 \/ c = 92)) ->
  rooted full -> dir_and_name full d n ->
  exists r, d = base ++ r /\ (base = [] \/ exists q, base = q ++ [92]) /\ (r = [] \/ exists q, r = q ++ [92]).
Proof.
  intros source sd relative full base d n H Hsd HR Hdn. destruct (base_prefix _ _ _ _ _ H Hsd HR) as (Hb & r & E).
  destruct (prefix_of_dir full d n base r Hdn E Hb) as (rl & Ed & Hr). eauto.
Qed.

(** Without --relative it is the directory part: what the source names arrives directly
    in the destination. *)
Theorem C74_non_relative_base : forall source sources_dir full base d n,
  prepare source sources_dir false = (full, base) -> rooted full -> dir_and_name full d n ->
  n = [] \/ (forall q, d <> q ++ [92; 92]) -> base = d.
Proof. exact base_non_relative. Qed.

(** With --relative it ends at the first \.\ , else it is the sources directory, else the
    root. *)
Theorem C74_relative_base : forall source sources_dir full base,
  prepare source sources_dir true = (full, base) ->
  (forall a b, full = a ++ [92; 46; 92] ++ b ->
     (forall a' b', full = a' ++ [92; 46; 92] ++ b' -> (length a <= length a')%nat) -> base = a ++ [92; 46; 92]) /\
  ((forall a b, full <> a ++ [92; 46; 92] ++ b) -> sources_dir <> [] -> base = windows sources_dir) /\
  ((forall a b, full <> a ++ [92; 46; 92] ++ b) -> sources_dir = [] -> forall r, root_of full r -> base = r).
Proof.
  intros source sd full base H. rewrite prepare_eq in H.
  assert (Ef : full = full_source (special_source source) (win_fix_seps sd)) by congruence.
  assert (Eb : base = base_dir full (win_fix_seps sd) true) by (rewrite Ef; congruence). clear H Ef.
  unfold base_dir in Eb. cbn [negb] in Eb. split; [|split].
  - intros a b E Hm. change [backslash; 46; backslash] with [92; 46; 92] in Eb. rewrite (find_str_first _ _ _ _ E Hm) in Eb. rewrite Eb. rewrite E at 1. rewrite firstn_app, firstn_all2 by lia. f_equal.
    replace (length a + 3 - length a)%nat with 3%nat by lia. reflexivity.
  - intros Hn Hs. destruct (find_str [backslash; 46; backslash] full) as [i|] eqn:F.
    { exfalso. destruct (find_str_some _ _ _ F) as (r & Er & _). exact (Hn _ _ Er). }
    rewrite <- fix_windows. destruct (win_fix_seps sd) eqn:X; [|exact Eb]. destruct sd; [contradiction|discriminate].
  - intros Hn -> r Hr. destruct (find_str [backslash; 46; backslash] full) as [i|] eqn:F.
    { exfalso. destruct (find_str_some _ _ _ F) as (r' & Er & _). exact (Hn _ _ Er). }
    cbn in Eb. rewrite Eb. now apply root_of_prefix.
Qed.

(** ** From the argument to the file list *)
Definition found_of (c : call) : ModelBatch.found :=
  let '(d, n, mt, sz, b) := c in ModelBatch.mk_found d n mt sz b.

Lemma make_calls_handle included threshold l s :
  make_calls (fun s d n mt sz b =>
       do s1 <- ModelBatch.handle_found backslash included threshold s (ModelBatch.mk_found d n mt sz b); Ok (s1, true)) l s =
  do s1 <- ModelBatch.handle_all backslash included threshold s (map found_of l); Ok (s1, true).
Proof.
  revert s. induction l as [|[[[[d n] mt] sz] b] l IH]; intros s; [reflexivity|].
  cbn [make_calls map found_of ModelBatch.handle_all]. destruct (ModelBatch.handle_found _ _ _ s _); cbn [bind]; [apply IH|reflexivity..].
Qed.

Lemma wgood_entry t n nd : wgood_names t -> wentry t n nd -> wgood n nd /\ match nd with WDir _ t' => wgood_names t' | _ => True end.
Proof.
  intros G H. induction H as [n nd r|m md r n nd H IH]; destruct G as (A & B & C); [split; assumption|auto].
Qed.
Lemma below_name t l n nd : wgood_names t -> below t (l ++ [n]) nd -> wgood n nd.
Proof.
  intros G H. remember (l ++ [n]) as q eqn:E. revert l n E G. induction H as [t x nd W Dx|t x mt t' q nd W Dx B IH]; intros l n E G.
  - destruct l as [|y l]; [|destruct l; discriminate]. cbn in E. injection E as <-. apply (wgood_entry _ _ _ G W).
  - destruct l as [|y l]; cbn in E.
    + injection E as -> ->. inversion B.
    + injection E as -> ->. eapply IH; [reflexivity|]. apply (wgood_entry _ _ _ G W).
Qed.

(** What C14 requires of the search holds: every source argument leads to exactly the
    found files it stands for, all of them properly below the base directory. *)
Theorem C74_source_to_files : forall matches isdir list_dir included threshold recursive relative sources_dir source full base d n,
  prepare source sources_dir relative = (full, base) ->
  (sources_dir = [] \/ exists e c, sources_dir = e ++ [c] /\ (c = 47 \/ c = 92)) ->
  full <> [] -> rooted full -> dir_and_name full d n ->
  (forall x, matches [42] x = true) -> (forall x, matches [] x = false) ->
  (isdir full = true -> ~ In 42 n) -> wgood_names (list_dir d) ->
  exists fl,
    (forall s, find_and_send_files matches isdir list_dir included threshold recursive relative sources_dir source s =
       ModelBatch.find_and_send 92 included threshold s (base, fl)) /\
    Forall (SpecBatch.proper base) fl /\
    (forall f, In f fl <->
       exists p y nd, below (list_dir d) (p ++ [y]) nd /\ wanted matches recursive (isdir full) d n p y /\
         f = let '(dir, name, mt, sz, b) := call_of d p y nd in ModelBatch.mk_found dir name mt sz b).
Proof.
  intros matches isdir list_dir included threshold recursive relative sd source full base d n HP Hsd Hf HR Hdn Hs Hn Hi Hg.
  destruct (C74_search matches recursive isdir list_dir full d n Hf Hdn Hs Hn Hi Hg) as (l & Hc & Hl & _).
  destruct (C74_base_is_prefix _ _ _ _ _ _ _ HP Hsd HR Hdn) as (r & Ed & Hb & Hr).
  assert (Hin : forall f, In f (map found_of l) <->
    exists p y nd, below (list_dir d) (p ++ [y]) nd /\ wanted matches recursive (isdir full) d n p y /\ f = found_of (call_of d p y nd)).
  { intros f. rewrite in_map_iff. split.
    - intros (c & <- & I). apply Hl in I. destruct I as (p & y & nd & A & B & ->). exists p, y, nd. auto.
    - intros (p & y & nd & A & B & ->). exists (call_of d p y nd). split; [reflexivity|]. apply Hl. exists p, y, nd. auto. }
  exists (map found_of l). split; [|split; [|exact Hin]].
  - intros s. unfold find_and_send_files. rewrite HP. rewrite Hc, make_calls_handle. unfold ModelBatch.find_and_send. cbn [fst snd].
    change backslash with 92. destruct (ModelBatch.handle_all _ _ _ _ _); reflexivity.
  - apply Forall_forall. intros f I. apply Hin in I. destruct I as (p & y & nd & B & _ & ->).
    pose proof (below_name _ _ _ _ Hg B) as (G1 & G2 & G3 & _).
    assert (Hdp : forall x, x = [] \/ (exists q, x = q ++ [92]) -> SpecBatch.dir_prefix x).
    { intros x [->|[q ->]]; [now left|]. right. exists q, 92. split; [reflexivity|]. now right. }
    assert (Fd : ModelBatch.fd_dir (found_of (call_of d p y nd)) = d ++ rel p /\ ModelBatch.fd_name (found_of (call_of d p y nd)) = y).
    { unfold call_of. destruct nd; cbn; split; reflexivity. }
    destruct Fd as (F1 & F2). split; [now apply Hdp|]. split; [|split].
    + exists (r ++ rel p). rewrite F1, Ed. split; [now rewrite app_assoc|]. apply Hdp.
      destruct p as [|p0 p1]; [cbn; rewrite app_nil_r; exact Hr|]. right.
      destruct (exists_last (l := p0 :: p1)) as (u & v & Eu); [discriminate|]. rewrite Eu. unfold rel. rewrite map_app, concat_app. cbn [map concat].
      exists (r ++ concat (map (fun x => x ++ [92]) u) ++ v). rewrite app_nil_r, <- !app_assoc. reflexivity.
    + now rewrite F2.
    + rewrite F2. apply Forall_forall. intros x I [->| ->]; contradiction.
Qed.

(** ** What does not hold *)
(** Names match "*s" when they end with s, and other patterns when they are equal. *)
Definition simple_matches (pat x : str) : bool :=
  match pat with
  | [] => false
  | c :: q => if c =? 42 then if in_dec (list_eq_dec N.eq_dec) q (map (fun i => skipn i x) (seq 0 (S (length x)))) then true else false
              else if list_eq_dec N.eq_dec pat x then true else false
  end.
(** d.t\d.t\...\f.t *)
Fixpoint chain (k : nat) : wtree :=
  match k with
  | O => WEntry [102; 46; 116] (WFile 0 1) WNil
  | S k => WEntry [100; 46; 116] (WDir 0 (chain k)) WNil
  end.
Definition count_files (k : nat) (_ _ : str) (_ : Z) (_ : N) (is_directory : bool) : outcome (nat * bool) :=
  Ok (if is_directory then k else S k, true).

Fixpoint files_in (l : list call) : nat := match l with [] => O | (_, _, _, _, b) :: l' => ((if (b : bool) then 0 else 1) + files_in l')%nat end.
Lemma files_in_app l1 l2 : files_in (l1 ++ l2) = (files_in l1 + files_in l2)%nat.
Proof. induction l1 as [|[[[[? ?] ?] ?] b] l1 IH]; [reflexivity|]. cbn. rewrite IH. destruct b; lia. Qed.
Lemma count_calls l k : make_calls count_files l k = Ok ((k + files_in l)%nat, true).
Proof.
  revert k. induction l as [|[[[[? ?] ?] ?] b] l IH]; intros k; cbn; [now rewrite Nat.add_0_r|]. rewrite IH. do 2 f_equal. destruct b; lia.
Qed.

(** With one pattern and one file below k directories that match it too, the file is
    found 2^k times. *)
Theorem C74_refuted_once : forall k,
  wgood_names (chain k) /\ wdistinct (chain k) /\
  search_files count_files simple_matches true (fun _ => false) (fun _ => chain k) [42; 46; 116] 0%nat = Ok ((2 ^ k)%nat, true).
Proof.
  intros k. split; [|split].
  - induction k as [|k IH]; cbn.
    + split; [|auto]. split; [discriminate|]. split; [intros [|[|[|[]]]]; discriminate|]. split; [intros [|[|[|[]]]]; discriminate|].
      intros [|]; discriminate.
    + split; [|auto]. split; [discriminate|]. split; [intros [|[|[|[]]]]; discriminate|]. split; [intros [|[|[|[]]]]; discriminate|].
      intros [|]; discriminate.
  - induction k as [|k IH]; cbn; auto.
  - assert (G : forall j dir, files_in (calls1 simple_matches true (chain j) dir [42; 46; 116] false ++
                                        calls2 simple_matches true (chain j) dir [42; 46; 116] false) = (2 ^ j)%nat).
    { induction j as [|j IH]; intros dir; [reflexivity|].
      cbn [chain]. rewrite calls1_cons, calls2_cons.
      change (simple_matches [42; 46; 116] [100; 46; 116]) with true. change (regular_name [100; 46; 116]) with true. cbv iota.
      change (inner [42; 46; 116] false) with [42; 46; 116]. rewrite csub_dir. change (second [42; 46; 116]) with true. cbv iota.
      cbn [calls1 calls2]. rewrite !app_nil_r.
      specialize (IH (dir ++ [100; 46; 116] ++ [92])).
      set (L := calls1 _ _ _ _ _ _ ++ calls2 _ _ _ _ _ _) in *. rewrite files_in_app.
      change (files_in ((dir, [100; 46; 116], 0%Z, 0, true) :: L)) with (files_in L). rewrite IH, Nat.pow_succ_r'. lia. }
    unfold search_files. cbv zeta. rewrite search_win_calls, count_calls. do 2 f_equal.
    unfold wcalls. rewrite <- (G k []). reflexivity.
Qed.

(** C:f, a path relative to the current directory of a drive: the base directory is longer
    than the directory reported by the search, and taking it off throws. *)
Theorem C74_refuted_drive_relative : forall included threshold s,
  find_and_send_files (fun _ _ => true) (fun _ => false) (fun _ => WEntry [102] (WFile 0 1) WNil)
    included threshold false false [] [67; 58; 102] s = UB.
Proof. intros included threshold s. reflexivity. Qed.

(** a\\b: the base directory is a\ , so that the file arrives as /b. *)
Theorem C74_refuted_doubled_separator : forall relative,
  prepare [97; 92; 92; 98] [] relative = ([97; 92; 92; 98], if relative then [] else [97; 92]) /\
  dir_and_name [97; 92; 92; 98] [97; 92; 92] [98].
Proof.
  intros relative. split; [destruct relative; reflexivity|]. split; [reflexivity|].
  split; [intros [|[]]; discriminate|]. right. exists [97; 92]. reflexivity.
Qed.

(** ** Hypotheses are met *)
Example C74_example : exists fl,
  find_and_send_files simple_matches (fun _ => false)
    (fun d => if list_eq_dec N.eq_dec d [115; 92] then
       WEntry [46] (WDir 0 WNil) (WEntry [97; 46; 99] (WFile 5 7) (WEntry [120] (WDir 1 (WEntry [98; 46; 99] (WFile 6 8) WNil)) WNil)) else WNil)
    (fun _ => true) 1000 true false [] [115; 47; 42; 46; 99] ModelBatch.ffs_init =
  ModelBatch.find_and_send 92 (fun _ => true) 1000 ModelBatch.ffs_init ([115; 92], fl) /\
  Forall (SpecBatch.proper [115; 92]) fl /\
  In (ModelBatch.mk_found [115; 92; 120; 92] [98; 46; 99] 6 8 false) fl.
Proof.
  assert (G : wgood_names (WEntry [46] (WDir 0 WNil) (WEntry [97; 46; 99] (WFile 5 7) (WEntry [120] (WDir 1 (WEntry [98; 46; 99] (WFile 6 8) WNil)) WNil)))).
  { cbn. unfold wgood, dots.
    repeat match goal with
    | |- _ /\ _ => split
    | |- True => exact Logic.I
    | |- _ <> [] => discriminate
    | |- ~ In _ _ => cbn [In]; intros X; decompose [or False] X; discriminate
    end; intros [X|X]; try discriminate; eauto. }
  destruct (C74_source_to_files simple_matches (fun _ => false)
    (fun d => if list_eq_dec N.eq_dec d [115; 92] then
       WEntry [46] (WDir 0 WNil) (WEntry [97; 46; 99] (WFile 5 7) (WEntry [120] (WDir 1 (WEntry [98; 46; 99] (WFile 6 8) WNil)) WNil)) else WNil)
    (fun _ => true) 1000 true false [] [115; 47; 42; 46; 99] [115; 92; 42; 46; 99] [115; 92] [115; 92] [42; 46; 99])
    as (fl & E & P & I).
  - reflexivity.
  - now left.
  - discriminate.
  - apply rooted_plain; intros; discriminate.
  - split; [reflexivity|]. split; [intros X; cbn in X; decompose [or False] X; discriminate|]. right. exists [115]. reflexivity.
  - intros x. unfold simple_matches. change (42 =? 42) with true. cbv iota. destruct in_dec as [|X]; [reflexivity|exfalso]. apply X.
    apply in_map_iff. exists (length x). split; [apply skipn_all|]. apply in_seq. lia.
  - reflexivity.
  - discriminate.
  - exact G.
  - exists fl. split; [apply E|]. split; [exact P|]. apply I. exists [[120]], [98; 46; 99], (WFile 6 8). split; [|split; [|reflexivity]].
    + cbn [list_eq_dec]. eapply below_deep; [apply wentry_rest, wentry_rest, wentry_here|intros [|]; discriminate|].
      apply below_direct; [apply wentry_here|intros [|]; discriminate].
    + unfold wanted. right. reflexivity.
Qed.
Example C74_once_example : exists l,
  (forall A (h : A -> str -> str -> Z -> N -> bool -> outcome (A * bool)) s,
     search_files h simple_matches true (fun _ => true) (fun _ => chain 3) [100; 46; 116] s = make_calls h l s) /\ once l.
Proof.
  destruct (C74_search simple_matches true (fun _ => true) (fun _ => chain 3) [100; 46; 116] [] [100; 46; 116]) as (l & A & _ & B).
  - discriminate.
  - split; [reflexivity|]. split; [intros X; cbn in X; decompose [or False] X; discriminate|now left].
  - intros x. unfold simple_matches. change (42 =? 42) with true. cbv iota. destruct in_dec as [|X]; [reflexivity|exfalso]. apply X.
    apply in_map_iff. exists (length x). split; [apply skipn_all|]. apply in_seq. lia.
  - reflexivity.
  - intros _ X. cbn in X. decompose [or False] X; discriminate.
  - apply (C74_refuted_once 3).
  - exists l. split; [exact A|]. apply B; [apply (C74_refuted_once 3)|]. intros _ X. cbn in X. decompose [or False] X; discriminate.
Qed.

Print Assumptions C74_search.
Print Assumptions C74_full_source.
Print Assumptions C74_base_is_prefix.
Print Assumptions C74_non_relative_base.
Print Assumptions C74_relative_base.
Print Assumptions C74_source_to_files.
Print Assumptions C74_refuted_once.
Print Assumptions C74_refuted_drive_relative.
Print Assumptions C74_refuted_doubled_separator.
