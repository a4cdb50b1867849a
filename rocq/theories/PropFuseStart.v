(** C68: starting the file system on the device. *)
From Verif Require Import Base ListX SpecText SpecOutput ModelText ProofText ModelPort PropPort ModelOutput PropOutput SpecFuseStart ModelFuseStart.
From Coq Require Import Lia ZArith.
Local Open Scope N_scope.
Local Notation str := (list N).

Lemma contains_iff (w s : str) : contains s w = true <-> occurs w s.
Proof.
  unfold contains. split.
  - destruct (str_find w s) as [i|] eqn:E; [|discriminate]. intros _. unfold str_find in E. apply find_seq in E.
    destruct E as (_ & E & _). exact (at_pos_occurs _ _ _ E).
  - intros H. destruct (occurs_at _ _ H) as (i & Hi & Hp). destruct (str_find w s) as [j|] eqn:E; [reflexivity|].
    unfold str_find in E. pose proof (find_none _ _ E i) as Y. rewrite Hp in Y.
    assert (false = true) by (symmetry; apply Y; apply List.in_seq; lia). discriminate.
Qed.
Lemma contains_not (w s : str) : ~ occurs w s -> contains s w = false.
Proof. intros H. destruct (contains s w) eqn:E; [|reflexivity]. apply contains_iff in E. contradiction. Qed.
(** A part of a word found is found as well. *)
Lemma at_pos_sub (u w v s : str) i : at_pos (u ++ w ++ v) s i = true -> at_pos w s (i + length u) = true.
Proof.
  unfold at_pos. intros H. apply is_prefix_iff in H. destruct H as (x & H). apply is_prefix_iff.
  exists (v ++ x). rewrite Nat.add_comm, <- skipn_skipn, H. rewrite <- !app_assoc.
  rewrite skipn_app, skipn_all, Nat.sub_diag. reflexivity.
Qed.
Lemma up_fuse s i : at_pos up_to_date s i = true -> at_pos fuse_is s (i + 1) = true.
Proof. exact (at_pos_sub [32] fuse_is [117;112;45;116;111;45;100;97;116;101] s i). Qed.
Lemma old_fuse s i : at_pos not_up_to_date s i = true -> at_pos fuse_is s i = true.
Proof. intros H. rewrite <- (Nat.add_0_r i). exact (at_pos_sub [] fuse_is [110;111;116;32;117;112;45;116;111;45;100;97;116;101] s i H). Qed.
Lemma conn_fuse s i : at_pos connected_ s i = true -> at_pos fuse_is s i = true.
Proof. intros H. rewrite <- (Nat.add_0_r i). exact (at_pos_sub [] fuse_is [99;111;110;110;101;99;116;101;100] s i H). Qed.

(** ** The line with the port *)
Section Line.
  Variable noise tail : str.
  Variable p : N.
  Hypothesis Hh : harmless noise.
  Let dec := print_dec p.
  Let n := length noise.
  Let d := length dec.
  Let full := noise ++ fport ++ dec ++ up_to_date ++ tail.
  Let K := (n + 5 + d + 26)%nat.

  Lemma dec_digits c : In c dec -> 48 <= c <= 57.
  Proof. destruct (print_dec_ok p) as (Hd & _). unfold all_digits in Hd. rewrite Forall_forall in Hd. intros H. apply Hd in H. exact H. Qed.
  Lemma nth_P : nth_error full n = Some 80.
  Proof. unfold full. rewrite nth_error_app2 by (unfold n; lia). unfold n. rewrite Nat.sub_diag. reflexivity. Qed.
  Lemma nth_mid i : (n < i < n + 5 + d)%nat -> exists c, nth_error full i = Some c /\ (c = 111 \/ c = 114 \/ c = 116 \/ c = 32 \/ 48 <= c <= 57).
  Proof.
    intros Hi. unfold full. rewrite nth_error_app2 by (unfold n in Hi; lia).
    destruct (Nat.lt_ge_cases (i - length noise) 5) as [H5|H5].
    - rewrite nth_error_app1 by exact H5. unfold n in Hi.
      destruct (i - length noise)%nat as [|[|[|[|[|k]]]]] eqn:E; [lia| | | | |lia]; cbn; eexists; (split; [reflexivity|]); auto.
    - rewrite nth_error_app2 by exact H5. rewrite nth_error_app1 by (unfold n, d in Hi; change (length fport) with 5%nat; lia).
      destruct (nth_error dec (i - length noise - length fport)) as [c|] eqn:Ec.
      + exists c. split; [reflexivity|]. do 4 right. apply dec_digits. exact (nth_error_In _ _ Ec).
      + apply nth_error_None in Ec. change (length fport) with 5%nat in Ec. unfold n, d in Hi. lia.
  Qed.
  Lemma nth_up k : (k < 26)%nat -> nth_error full (n + 5 + d + k) = nth_error up_to_date k.
  Proof.
    intros Hk. unfold full. rewrite nth_error_app2 by (unfold n; lia). rewrite nth_error_app2 by (change (length fport) with 5%nat; unfold n; lia).
    rewrite nth_error_app2 by (change (length fport) with 5%nat; unfold n, d; lia).
    rewrite nth_error_app1 by (change (length fport) with 5%nat; change (length up_to_date) with 26%nat; unfold n, d; lia).
    f_equal. change (length fport) with 5%nat. unfold n, d. lia.
  Qed.
  Lemma fuse_line i : at_pos fuse_is full i = true -> (i + 15 <= K)%nat -> i = (n + 5 + d + 1)%nat.
  Proof.
    intros H Hi. destruct (Nat.le_gt_cases i n) as [Hin|Hin].
    - exfalso. destruct (Nat.le_gt_cases (i + 15) n) as [Hl|Hl].
      + apply (proj2 Hh). apply (at_pos_occurs _ _ i). unfold full in H. rewrite at_pos_app in H by exact Hl. exact H.
      + assert (X := at_pos_nth fuse_is full i (n - i) H ltac:(cbn; lia)).
        replace (i + (n - i))%nat with n in X by lia. rewrite nth_P in X. symmetry in X. apply nth_error_In in X. cbn in X. intuition discriminate.
    - assert (X0 := at_pos_nth fuse_is full i 0 H ltac:(cbn; lia)). rewrite Nat.add_0_r in X0.
      destruct (Nat.lt_ge_cases i (n + 5 + d)) as [Hlt|Hge].
      + exfalso. destruct (nth_mid i) as (c & Hc & Hcc); [lia|]. rewrite Hc in X0. cbn in X0. inversion X0; subst. lia.
      + assert (X1 := at_pos_nth fuse_is full i 1 H ltac:(cbn; lia)).
        destruct (i - (n + 5 + d))%nat as [|[|[|[|k]]]] eqn:Ek.
        * exfalso. replace i with (n + 5 + d + 0)%nat in X0 by lia. rewrite nth_up in X0 by lia. discriminate X0.
        * lia.
        * exfalso. replace i with (n + 5 + d + 2)%nat in X0 by lia. rewrite nth_up in X0 by lia. discriminate X0.
        * exfalso. replace (i + 1)%nat with (n + 5 + d + 4)%nat in X1 by lia. rewrite nth_up in X1 by lia. discriminate X1.
        * exfalso. unfold K in Hi. replace i with (n + 5 + d + (4 + k))%nat in X0 by lia. rewrite nth_up in X0 by lia.
          assert (Hk : (k <= 7)%nat) by lia. clear - X0 Hk.
          destruct k as [|[|[|[|[|[|[|[|k]]]]]]]]; try discriminate X0. lia.
  Qed.
  (** Nothing is recognized in a part of the output that ends before the line is complete. *)
  Lemma early t x : t ++ x = full -> (length t < K)%nat -> ~ occurs up_to_date t /\ ~ occurs not_up_to_date t /\ ~ occurs connected_ t.
  Proof.
    intros Ht Hl.
    assert (G : forall w, w <> [] -> forall i, at_pos w t i = true -> at_pos w full i = true /\ (i + length w <= length t)%nat).
    { intros w Hw i H. pose proof (at_pos_len w t i Hw H) as Hlen. split; [|exact Hlen]. rewrite <- Ht, at_pos_app by exact Hlen. exact H. }
    split; [|split]; intros Ho; destruct (occurs_at _ _ Ho) as (i & _ & Hp).
    - destruct (G up_to_date ltac:(discriminate) i Hp) as (Hf & Hi). change (length up_to_date) with 26%nat in Hi.
      apply up_fuse in Hf. apply fuse_line in Hf; unfold K in *; lia.
    - destruct (G not_up_to_date ltac:(discriminate) i Hp) as (Hf & Hi). change (length not_up_to_date) with 29%nat in Hi.
      apply old_fuse in Hf. apply fuse_line in Hf; unfold K in *; lia.
    - destruct (G connected_ ltac:(discriminate) i Hp) as (Hf & Hi). change (length connected_) with 24%nat in Hi.
      pose proof (conn_fuse _ _ Hf) as Hg. apply fuse_line in Hg; [|lia].
      assert (X := at_pos_nth connected_ full i 15 Hf ltac:(cbn; lia)). subst i.
      replace (n + 5 + d + 1 + 15)%nat with (n + 5 + d + 16)%nat in X by lia. rewrite nth_up in X by lia. discriminate X.
  Qed.
  Lemma parse_full : 1 <= p <= 65535 -> fuse_parse full = Ok (Z.of_N p).
  Proof.
    intros Hp. assert (Hf : str_find fport full = Some n).
    { apply find_seq. split; [unfold full; rewrite app_length; fold n; lia|]. split.
      - unfold at_pos, full, n. rewrite skipn_app, skipn_all, Nat.sub_diag. cbn [skipn app]. apply is_prefix_iff. eauto.
      - intros j Hj. destruct (at_pos fport full j) eqn:E; [exfalso|reflexivity].
        destruct (Nat.le_gt_cases (j + 5) n) as [Hl|Hl].
        + apply (proj1 Hh). apply (at_pos_occurs _ _ j). unfold full in E. rewrite at_pos_app in E by exact Hl. exact E.
        + assert (X := at_pos_nth fport full j (n - j) E ltac:(cbn; lia)). replace (j + (n - j))%nat with n in X by lia. rewrite nth_P in X.
          destruct (n - j)%nat as [|k] eqn:Ek; [lia|]. cbn in X. symmetry in X.
          change (nth_error [111;114;116;32] k = Some 80) in X. apply nth_error_In in X. cbn in X. intuition discriminate. }
    unfold fuse_parse. rewrite Hf.
    assert (Hs : skipn (n + length fport) full = dec ++ up_to_date ++ tail).
    { unfold full. rewrite app_assoc. rewrite skipn_app. rewrite skipn_all2 by (rewrite app_length; unfold n; lia).
      rewrite app_length. unfold n. rewrite Nat.sub_diag. reflexivity. }
    rewrite Hs. unfold dec, up_to_date. cbn [app]. rewrite atoi_stop by (reflexivity || lia). cbn [bind].
    destruct (Z.eqb_spec (Z.of_N p) 0); [lia|reflexivity].
  Qed.
End Line.

(** What is known when the text [t] has arrived. *)
Definition linv (noise : str) (p : N) (t : str) (st : fst_) : Prop :=
  let K := (length noise + 5 + length (print_dec p) + 26)%nat in
  ((length t < K)%nat -> st = fo t 0%Z false false false) /\
  ((K <= length t)%nat -> f_port st = Z.of_N p /\ f_old st = false /\ f_checked st = true /\
     (f_conn st = true -> occurs connected_ t) /\ (f_conn st = false -> f_out st = t /\ ~ occurs connected_ t)).
Lemma occurs_app (w a b : str) : occurs w a -> occurs w (a ++ b).
Proof. intros (x & y & ->). exists x, (y ++ b). rewrite <- !app_assoc. reflexivity. Qed.
Lemma long_prefix (noise tail t x : str) p :
  t ++ x = noise ++ fport ++ print_dec p ++ up_to_date ++ tail -> (length noise + 5 + length (print_dec p) + 26 <= length t)%nat ->
  exists tail2, t = noise ++ fport ++ print_dec p ++ up_to_date ++ tail2.
Proof.
  intros H Hl. set (h := noise ++ fport ++ print_dec p ++ up_to_date).
  assert (Hh : length h = (length noise + 5 + length (print_dec p) + 26)%nat).
  { unfold h. rewrite !app_length. change (length fport) with 5%nat. change (length up_to_date) with 26%nat. lia. }
  assert (E : t ++ x = h ++ tail) by (unfold h; rewrite <- !app_assoc; exact H).
  assert (Ef : firstn (length h) t = h).
  { apply (f_equal (firstn (length h))) in E. rewrite !firstn_app in E. rewrite (proj2 (Nat.sub_0_le (length h) (length t))) in E by lia.
    rewrite Nat.sub_diag, firstn_all in E. cbn [firstn] in E. rewrite !app_nil_r in E. exact E. }
  exists (skipn (length h) t). rewrite <- (firstn_skipn (length h) t) at 1. rewrite Ef. unfold h. rewrite <- !app_assoc. reflexivity.
Qed.
Lemma line_step noise tail p t data x st : harmless noise -> 1 <= p <= 65535 ->
  t ++ data ++ x = noise ++ fport ++ print_dec p ++ up_to_date ++ tail -> linv noise p t st ->
  exists st2, fuse_handle st data = Some st2 /\ linv noise p (t ++ data) st2.
Proof.
  intros Hh Hp Hx (I1 & I2). set (K := (length noise + 5 + length (print_dec p) + 26)%nat) in *.
  destruct (f_conn st) eqn:Ec.
  - assert (HK : (K <= length t)%nat).
    { destruct (Nat.le_gt_cases K (length t)) as [|H]; [assumption|]. rewrite (I1 H) in Ec. discriminate. }
    destruct (I2 HK) as (A & B & C & D & _). exists st. unfold fuse_handle. rewrite Ec. split; [reflexivity|].
    split; [rewrite app_length; fold K; lia|]. intros _. split; [exact A|]. split; [exact B|]. split; [exact C|].
    split; [intros _; apply occurs_app; auto|congruence].
  - assert (Ho : f_out st = t /\ f_old st = false).
    { destruct (Nat.le_gt_cases K (length t)) as [H|H]; [destruct (I2 H) as (A & B & C & _ & D); split; [apply D; reflexivity|exact B]|].
      rewrite (I1 H). split; reflexivity. }
    destruct Ho as (Ho & Hold). unfold fuse_handle. rewrite Ec, Ho, Hold. set (t2 := t ++ data) in *.
    assert (Hx2 : t2 ++ x = noise ++ fport ++ print_dec p ++ up_to_date ++ tail) by (unfold t2; rewrite <- app_assoc; exact Hx).
    destruct (Nat.le_gt_cases K (length t2)) as [HK|HK].
    + destruct (long_prefix noise tail t2 x p Hx2 HK) as (tail2 & Et).
      assert (Hu : contains t2 up_to_date = true).
      { apply contains_iff. exists (noise ++ fport ++ print_dec p), tail2. rewrite Et, <- !app_assoc. reflexivity. }
      assert (Hpar : fuse_parse t2 = Ok (Z.of_N p)) by (rewrite Et; exact (parse_full noise tail2 p Hh Hp)).
      rewrite Hu, Hpar. eexists. split; [reflexivity|].
      split; [fold K; lia|]. cbn [f_port f_old f_checked f_conn f_out]. intros _. split; [reflexivity|]. split; [reflexivity|]. split; [reflexivity|].
      split; intros X; [apply contains_iff; exact X|]. split; [reflexivity|]. intros Y. apply contains_iff in Y. congruence.
    + destruct (early noise tail p Hh t2 x Hx2 HK) as (E1 & E2 & E3).
      rewrite !contains_not by assumption. assert (Hlt : (length t < K)%nat) by (unfold t2 in HK; rewrite app_length in HK; lia).
      rewrite (I1 Hlt). cbn [f_port f_checked]. eexists. split; [reflexivity|]. split; [reflexivity|fold K; lia].
Qed.
Lemma line_all noise tail p : harmless noise -> 1 <= p <= 65535 -> forall pieces t x st,
  t ++ concat pieces ++ x = noise ++ fport ++ print_dec p ++ up_to_date ++ tail -> linv noise p t st ->
  exists st2, fuse_all st pieces = Some st2 /\ linv noise p (t ++ concat pieces) st2.
Proof.
  intros Hh Hp. induction pieces as [|y r IH]; intros t x st Hx Hi; cbn [fuse_all concat] in *.
  - exists st. rewrite app_nil_r. auto.
  - rewrite <- app_assoc in Hx. destruct (line_step noise tail p t y (concat r ++ x) st Hh Hp Hx Hi) as (st1 & E & H1).
    rewrite E. destruct (IH (t ++ y) x st1) as (st2 & E2 & H2); [rewrite <- app_assoc; exact Hx|exact H1|].
    exists st2. rewrite app_assoc. auto.
Qed.
Lemma linv_init noise p : linv noise p [] fuse_init.
Proof. split; [reflexivity|cbn; lia]. Qed.

(** A file system that is up to date: its port is found, whatever the login prints before and however the output is cut;
    it counts as connected when it says so. *)
Theorem C68_port : forall pieces noise p rest,
  concat pieces = noise ++ says_port p ++ rest -> harmless noise -> 1 <= p <= 65535 ->
  exists st, fuse_all fuse_init pieces = Some st /\ f_port st = Z.of_N p /\ f_checked st = true /\ f_old st = false /\
    (f_conn st = true <-> occurs connected_ (concat pieces)).
Proof.
  intros pieces noise p rest Hs Hh Hp.
  destruct (line_all noise (10 :: rest) p Hh Hp pieces [] [] fuse_init) as (st & E & (_ & H)).
  - rewrite app_nil_r. cbn [app]. rewrite Hs. unfold says_port. rewrite <- !app_assoc. reflexivity.
  - apply linv_init.
  - cbn [app] in H. destruct H as (A & B & C & D & F).
    { rewrite Hs. unfold says_port. rewrite !app_length. change (length fport) with 5%nat. change (length up_to_date) with 26%nat. lia. }
    exists st. split; [exact E|]. split; [exact A|]. split; [exact C|]. split; [exact B|].
    split; [exact D|]. intros Ho. destruct (f_conn st) eqn:Ec; [reflexivity|]. destruct (F eq_refl) as (_ & X). contradiction.
Qed.
(** Nothing is concluded from less than the whole line. *)
Theorem C68_no_early_decision : forall pieces noise p x,
  concat pieces ++ x = noise ++ fport ++ print_dec p ++ up_to_date -> x <> [] -> harmless noise -> 1 <= p <= 65535 ->
  exists st, fuse_all fuse_init pieces = Some st /\ f_port st = 0%Z /\ f_checked st = false /\ f_old st = false /\ f_conn st = false.
Proof.
  intros pieces noise p x Hs Hx Hh Hp.
  destruct (line_all noise [] p Hh Hp pieces [] x fuse_init) as (st & E & (H & _)).
  - cbn [app]. rewrite app_nil_r. exact Hs.
  - apply linv_init.
  - cbn [app] in H. apply (f_equal (@length N)) in Hs. rewrite !app_length in Hs. change (length fport) with 5%nat in Hs. change (length up_to_date) with 26%nat in Hs.
    destruct x as [|c x]; [congruence|]. cbn [length] in Hs. rewrite H in E by lia. eexists. split; [exact E|]. auto.
Qed.
(** A login message with "Port " in it spoils it: the comment says backwards, the search goes forwards. *)
Theorem C68_port_refuted :
  ~ (forall pieces noise p rest, concat pieces = noise ++ says_port p ++ rest -> ~ occurs fuse_is noise -> 1 <= p <= 65535 ->
       exists st, fuse_all fuse_init pieces = Some st /\ f_port st = Z.of_N p).
Proof.
  intros H. set (noise := fport ++ [50;50;32;105;115;32;97;32;116;114;97;112;10]).   (* "Port 22 is a trap\n" *)
  destruct (H [noise ++ says_port 4711] noise 4711 []) as (st & E & Hp).
  - cbn [concat]. rewrite !app_nil_r. reflexivity.
  - intros X. apply contains_iff in X. vm_compute in X. discriminate X.
  - lia.
  - vm_compute in E. injection E as <-. vm_compute in Hp. discriminate Hp.
Qed.

(** Whatever is printed: a file system taken for current has a port. *)
Theorem C68_port_not_zero : forall pieces st, fuse_all fuse_init pieces = Some st ->
  f_checked st = true -> f_old st = false -> f_port st <> 0%Z.
Proof.
  intros pieces st H. assert (G : forall l s t, fuse_all s l = Some t -> (f_checked s = true -> f_old s = false -> f_port s <> 0%Z) ->
    f_checked t = true -> f_old t = false -> f_port t <> 0%Z).
  { clear. induction l as [|x l IH]; intros s t H Hs; cbn [fuse_all] in H; [injection H as <-; exact Hs|].
    destruct (fuse_handle s x) as [s2|] eqn:E; [|discriminate]. apply (IH s2 t H). clear - E Hs. unfold fuse_handle in E.
    destruct (f_conn s); [injection E as <-; exact Hs|].
    destruct (contains (f_out s ++ x) up_to_date).
    - destruct (fuse_parse (f_out s ++ x)) as [v| | |] eqn:Ep; try discriminate E; injection E as <-; cbn; [|exact Hs].
      intros _ _. unfold fuse_parse in Ep. destruct (str_find fport (f_out s ++ x)); [|discriminate].
      destruct (atoi _); cbn in Ep; try discriminate. destruct (Z.eqb_spec a 0); [discriminate|]. congruence.
    - destruct (contains (f_out s ++ x) not_up_to_date); injection E as <-; cbn; [discriminate|exact Hs]. }
  apply (G _ _ _ H). discriminate.
Qed.
(** ** The line of an old file system *)
Section Old.
  Variable noise tail : str.
  Hypothesis Hh : ~ occurs fuse_is noise.
  Hypothesis Ht : ~ occurs fuse_is tail.
  Let n := length noise.
  Let full := noise ++ not_up_to_date ++ 10 :: tail.
  Lemma nth_old k : (k < 29)%nat -> nth_error full (n + k) = nth_error not_up_to_date k.
  Proof.
    intros Hk. unfold full. rewrite nth_error_app2 by (unfold n; lia). rewrite nth_error_app1 by (change (length not_up_to_date) with 29%nat; unfold n; lia).
    f_equal. unfold n. lia.
  Qed.
  Lemma fuse_old i : at_pos fuse_is full i = true -> i = n.
  Proof.
    intros H. destruct (Nat.lt_trichotomy i n) as [Hlt|[E|Hgt]]; [exfalso|exact E|exfalso].
    - destruct (Nat.le_gt_cases (i + 15) n) as [Hl|Hl].
      + apply Hh. apply (at_pos_occurs _ _ i). unfold full in H. rewrite at_pos_app in H by exact Hl. exact H.
      + assert (X := at_pos_nth fuse_is full i (n - i) H ltac:(cbn; lia)). replace (i + (n - i))%nat with (n + 0)%nat in X by lia.
        rewrite nth_old in X by lia. remember (n - i)%nat as k eqn:Ek.
        destruct k as [|[|[|k]]]; [lia|discriminate X| |].
        * assert (Y := at_pos_nth fuse_is full i 3 H ltac:(cbn; lia)). replace (i + 3)%nat with (n + 1)%nat in Y by lia.
          rewrite nth_old in Y by lia. discriminate Y.
        * do 12 (destruct k as [|k]; [discriminate X|]). lia.
    - assert (X := at_pos_nth fuse_is full i 0 H ltac:(cbn; lia)). rewrite Nat.add_0_r in X.
      destruct (Nat.lt_ge_cases i (n + 29)) as [Hl|Hl].
      + assert (Y := at_pos_nth fuse_is full i 1 H ltac:(cbn; lia)).
        remember (i - n)%nat as k eqn:Ek. replace i with (n + k)%nat in X, Y by lia. rewrite nth_old in X by lia.
        destruct k as [|[|[|k]]]; [lia|discriminate X| |].
        * replace (n + 2 + 1)%nat with (n + 3)%nat in Y by lia. rewrite nth_old in Y by lia. discriminate Y.
        * do 26 (destruct k as [|k]; [discriminate X|]). lia.
      + assert (Hs : skipn i full = skipn (i - n - 29) (10 :: tail)).
        { unfold full. rewrite skipn_app. rewrite skipn_all2 by (unfold n in Hgt; lia). cbn [app].
          rewrite skipn_app. rewrite skipn_all2 by (change (length not_up_to_date) with 29%nat; unfold n in *; lia). reflexivity. }
        unfold at_pos in H. rewrite Hs in H. destruct (i - n - 29)%nat as [|k]; [discriminate H|]. cbn [skipn] in H.
        apply Ht. exact (at_pos_occurs fuse_is tail k H).
  Qed.
  Lemma old_only t x : t ++ x = full -> ~ occurs up_to_date t /\ ~ occurs connected_ t /\ ((length t < n + 29)%nat -> ~ occurs not_up_to_date t).
  Proof.
    intros Hx.
    assert (G : forall w, w <> [] -> forall i, at_pos w t i = true -> at_pos w full i = true /\ (i + length w <= length t)%nat).
    { intros w Hw i H. pose proof (at_pos_len w t i Hw H) as Hlen. split; [|exact Hlen]. rewrite <- Hx, at_pos_app by exact Hlen. exact H. }
    split; [|split; [|intros Hl]]; intros Ho; destruct (occurs_at _ _ Ho) as (i & _ & Hp).
    - destruct (G up_to_date ltac:(discriminate) i Hp) as (Hf & Hi). pose proof (up_fuse _ _ Hf) as Hg. apply fuse_old in Hg.
      assert (X := at_pos_nth up_to_date full i 16 Hf ltac:(cbn; lia)). replace (i + 16)%nat with (n + 15)%nat in X by lia.
      rewrite nth_old in X by lia. discriminate X.
    - destruct (G connected_ ltac:(discriminate) i Hp) as (Hf & Hi). pose proof (conn_fuse _ _ Hf) as Hg. apply fuse_old in Hg.
      assert (X := at_pos_nth connected_ full i 15 Hf ltac:(cbn; lia)). subst i. rewrite nth_old in X by lia. discriminate X.
    - destruct (G not_up_to_date ltac:(discriminate) i Hp) as (Hf & Hi). pose proof (old_fuse _ _ Hf) as Hg. apply fuse_old in Hg.
      change (length not_up_to_date) with 29%nat in Hi. lia.
  Qed.
  Lemma old_all : forall pieces t x st, t ++ concat pieces ++ x = full ->
    f_out st = t -> f_conn st = false -> f_port st = 0%Z ->
    (f_old st = true <-> occurs not_up_to_date t) -> f_checked st = f_old st ->
    exists st2, fuse_all st pieces = Some st2 /\ f_port st2 = 0%Z /\ f_conn st2 = false /\ f_checked st2 = f_old st2 /\
      (f_old st2 = true <-> occurs not_up_to_date (t ++ concat pieces)).
  Proof.
    induction pieces as [|y r IH]; intros t x st Hx Ho Hc Hp Hold Hch; cbn [fuse_all concat] in *.
    - exists st. rewrite app_nil_r. auto.
    - unfold fuse_handle. rewrite Hc, Ho. rewrite <- app_assoc in Hx.
      destruct (old_only (t ++ y) (concat r ++ x)) as (N1 & N2 & _); [rewrite <- app_assoc; exact Hx|].
      rewrite (contains_not up_to_date) by exact N1. rewrite (contains_not connected_) by exact N2.
      assert (Hx2 : (t ++ y) ++ concat r ++ x = full) by (rewrite <- app_assoc; exact Hx).
      destruct (contains (t ++ y) not_up_to_date) eqn:E.
      + apply contains_iff in E. destruct (IH (t ++ y) x (fo (t ++ y) (f_port st) true true false) Hx2) as (st2 & E2 & Q); cbn; auto; [tauto|].
        exists st2. rewrite app_assoc. auto.
      + assert (Hn : ~ occurs not_up_to_date (t ++ y)) by (intros X; apply contains_iff in X; congruence).
        assert (Hf : f_old st = false).
        { destruct (f_old st); [|reflexivity]. exfalso. apply Hn. apply occurs_app. apply Hold. reflexivity. }
        destruct (IH (t ++ y) x (fo (t ++ y) (f_port st) (f_old st) (f_checked st) false) Hx2) as (st2 & E2 & Q); cbn; auto.
        * rewrite Hf. split; [discriminate|contradiction].
        * exists st2. rewrite app_assoc. auto.
  Qed.
End Old.
(** A file system that is not up to date is recognized, when its line is complete and not before. *)
Theorem C68_old : forall pieces noise rest x,
  concat pieces ++ x = noise ++ says_old ++ rest -> ~ occurs fuse_is noise -> ~ occurs fuse_is rest ->
  exists st, fuse_all fuse_init pieces = Some st /\ f_port st = 0%Z /\ f_conn st = false /\ f_checked st = f_old st /\
    (f_old st = true <-> (length (noise ++ not_up_to_date) <= length (concat pieces))%nat).
Proof.
  intros pieces noise rest x Hs Hn Hr.
  assert (Hs2 : concat pieces ++ x = noise ++ not_up_to_date ++ 10 :: rest) by (rewrite Hs; unfold says_old; rewrite <- app_assoc; reflexivity).
  assert (N0 : ~ occurs not_up_to_date []) by (intros (a & b & X); destruct a; discriminate X).
  destruct (old_all noise rest Hn Hr pieces [] x fuse_init) as (st & E & A & B & C & D); auto.
  - cbn. split; [discriminate|]. contradiction.
  - exists st. split; [exact E|]. split; [exact A|]. split; [exact B|]. split; [exact C|]. rewrite D. cbn [app]. split.
    + intros Ho. destruct (old_only noise rest Hn Hr (concat pieces) x Hs2) as (_ & _ & X).
      rewrite app_length. change (length not_up_to_date) with 29%nat.
      destruct (Nat.le_gt_cases (length noise + 29) (length (concat pieces))) as [H|H]; [exact H|]. exfalso. exact (X H Ho).
    + intros Hl. set (h := noise ++ not_up_to_date) in *. rewrite app_assoc in Hs2. fold h in Hs2.
      assert (Ef : firstn (length h) (concat pieces) = h).
      { apply (f_equal (firstn (length h))) in Hs2. rewrite !firstn_app in Hs2. rewrite (proj2 (Nat.sub_0_le (length h) (length (concat pieces)))) in Hs2 by lia.
        rewrite Nat.sub_diag, firstn_all in Hs2. cbn [firstn] in Hs2. rewrite !app_nil_r in Hs2. exact Hs2. }
      exists noise, (skipn (length h) (concat pieces)). rewrite <- (firstn_skipn (length h) (concat pieces)) at 1. rewrite Ef. unfold h. rewrite <- app_assoc. reflexivity.
Qed.
(** Output without any of the lines decides nothing. *)
Lemma quiet_all : forall pieces st, f_conn st = false -> ~ occurs fuse_is (f_out st ++ concat pieces) ->
  exists st2, fuse_all st pieces = Some st2 /\ f_port st2 = f_port st /\ f_conn st2 = false /\ f_checked st2 = f_checked st /\ f_old st2 = f_old st.
Proof.
  induction pieces as [|y r IH]; intros st Hc Hn; cbn [fuse_all concat] in *.
  - exists st. auto.
  - unfold fuse_handle. rewrite Hc. rewrite app_assoc in Hn.
    assert (Hq : forall w i u v, w = u ++ fuse_is ++ v -> at_pos w (f_out st ++ y) i = true -> False).
    { intros w i u v -> H. apply at_pos_sub in H. apply Hn. apply occurs_app. exact (at_pos_occurs _ _ _ H). }
    assert (N : forall w u v, w = u ++ fuse_is ++ v -> contains (f_out st ++ y) w = false).
    { intros w u v Hw. apply contains_not. intros Ho. destruct (occurs_at _ _ Ho) as (i & _ & Hp). exact (Hq w i u v Hw Hp). }
    rewrite (N up_to_date [32] [117;112;45;116;111;45;100;97;116;101] eq_refl).
    rewrite (N not_up_to_date [] [110;111;116;32;117;112;45;116;111;45;100;97;116;101] eq_refl).
    rewrite (N connected_ [] [99;111;110;110;101;99;116;101;100] eq_refl).
    destruct (IH (fo (f_out st ++ y) (f_port st) (f_old st) (f_checked st) false) eq_refl Hn) as (st2 & E & Q). exists st2. auto.
Qed.

(** ** Starting *)
Lemma fuse_all_app : forall a b st, fuse_all st (a ++ b) = match fuse_all st a with Some s => fuse_all s b | None => None end.
Proof. induction a as [|x a IH]; intros b st; [reflexivity|]. cbn. destruct (fuse_handle st x); [apply IH|reflexivity]. Qed.
(** The device's file system is current, listens on [p], and says that it is connected in the end. *)
Definition works (a : attempt) (r : rest) (p : N) : Prop :=
  a_starts a = true /\ 1 <= p <= 65535 /\ r_fwd_starts r = true /\
  (exists noise more, harmless noise /\ concat (a_seen a) = noise ++ says_port p ++ more) /\
  occurs connected_ (concat (a_seen a ++ r_seen r)).
(** The device has an old one, or none, or a broken one. *)
Definition unusable (a : attempt) : Prop :=
  a_starts a = true /\
  ((exists noise more, ~ occurs fuse_is noise /\ ~ occurs fuse_is more /\ concat (a_seen a) = noise ++ says_old ++ more) \/
   (~ occurs fuse_is (concat (a_seen a)) /\ exists code, a_end a = ExitedWith code /\ code <> 0)).
Lemma works_run a r p : works a r p -> exists st, run_fuse a = Ran false (Z.of_N p) st /\ forward_and_wait true (Z.of_N p) st r = (Started (Z.of_N p), mgr true true).
Proof.
  intros (H1 & H2 & H3 & (noise & more & Hh & Hs) & Hc).
  destruct (C68_port (a_seen a) noise p more Hs Hh H2) as (st & E & A & B & C & _).
  exists st. unfold run_fuse. rewrite H1, E, A, B, C. cbn [negb]. split; [reflexivity|].
  destruct (C68_port (a_seen a ++ r_seen r) noise p (more ++ concat (r_seen r))) as (st2 & E2 & _ & _ & _ & D).
  - rewrite concat_app, Hs, <- !app_assoc. reflexivity.
  - exact Hh.
  - exact H2.
  - rewrite fuse_all_app, E in E2. unfold forward_and_wait. rewrite H3, E2. cbn [negb]. rewrite (proj2 D Hc). reflexivity.
Qed.
Lemma unusable_run a : unusable a -> exists p st, run_fuse a = Ran true p st.
Proof.
  intros (H1 & [(noise & more & Hn & Hm & Hs)|(Hn & code & He & Hc)]).
  - destruct (C68_old (a_seen a) noise more []) as (st & E & _ & _ & B & C); auto; [rewrite app_nil_r; exact Hs|].
    assert (Ho : f_old st = true).
    { apply C. rewrite Hs. unfold says_old. rewrite !app_length. lia. }
    unfold run_fuse. rewrite H1, E, B, Ho. cbn [negb]. eauto.
  - destruct (quiet_all (a_seen a) fuse_init eq_refl Hn) as (st & E & _ & _ & B & C).
    unfold run_fuse. rewrite H1, E, B, C. cbn [negb fuse_init f_checked f_old]. rewrite He.
    rewrite (proj2 (N.eqb_neq _ _) Hc). cbn [orb negb]. eauto.
Qed.
(** A current file system is started without deployment, and its port is forwarded. *)
Theorem C68_starts : forall a ok b r p, works a r p -> fuse_start a ok b r = (Started (Z.of_N p), mgr true true, 0%nat).
Proof. intros a ok b r p H. destruct (works_run _ _ _ H) as (st & E & F). unfold fuse_start. rewrite E, F. reflexivity. Qed.
(** An old, missing or broken one is deployed once and started again. *)
Theorem C68_deploys : forall a b r p, unusable a -> works b r p -> fuse_start a true b r = (Started (Z.of_N p), mgr true true, 1%nat).
Proof.
  intros a b r p Ha Hb. destruct (unusable_run _ Ha) as (q & st0 & E0). destruct (works_run _ _ _ Hb) as (st & E & F).
  unfold fuse_start. rewrite E0, E. cbn [negb]. rewrite F. reflexivity.
Qed.
(** Started means: the last file system started said it is connected; its port, if it announced one, is forwarded;
    there was at most one deployment, and none without reason. *)
Theorem C68_started : forall a ok b r q m n, fuse_start a ok b r = (Started q, m, n) ->
  m = mgr true true /\ (n <= 1)%nat /\
  (let x := if Nat.eqb n 0 then a else b in
   a_starts x = true /\ r_fwd_starts r = true /\
   (forall noise p more, harmless noise -> 1 <= p <= 65535 -> concat (a_seen x) = noise ++ says_port p ++ more ->
      q = Z.of_N p /\ occurs connected_ (concat (a_seen x ++ r_seen r)))) /\
  (n = 1%nat -> ok = true /\ ~ exists p noise more, harmless noise /\ 1 <= p <= 65535 /\ concat (a_seen a) = noise ++ says_port p ++ more).
Proof.
  intros a ok b r q m n H.
  assert (G : forall fuse port st x deploy, run_fuse x = Ran deploy port st -> fuse = negb deploy -> forward_and_wait fuse port st r = (Started q, m) ->
    m = mgr true true /\ a_starts x = true /\ r_fwd_starts r = true /\
    (forall noise p more, harmless noise -> 1 <= p <= 65535 -> concat (a_seen x) = noise ++ says_port p ++ more ->
      q = Z.of_N p /\ occurs connected_ (concat (a_seen x ++ r_seen r)))).
  { clear H. intros fuse port st x deploy Hr Hfu Hf. unfold forward_and_wait in Hf.
    destruct (r_fwd_starts r); cbn [negb] in Hf; [|discriminate]. destruct fuse; cbn [negb] in Hf; [|discriminate].
    destruct (fuse_all st (r_seen r)) as [st2|] eqn:E2; [|discriminate].
    destruct (f_conn st2) eqn:Ec; [|destruct (r_end r); discriminate]. injection Hf as -> <-.
    unfold run_fuse in Hr. destruct (a_starts x); cbn [negb] in Hr; [|discriminate].
    destruct (fuse_all fuse_init (a_seen x)) as [st1|] eqn:E1; [|discriminate].
    split; [reflexivity|]. split; [reflexivity|]. split; [reflexivity|]. intros noise p more Hh Hp Hs.
    destruct (C68_port _ _ _ _ Hs Hh Hp) as (st3 & E3 & A & B & C & _). rewrite E1 in E3. injection E3 as <-. rewrite B in Hr.
    injection Hr as _ <- <-. split; [exact A|].
    destruct (C68_port (a_seen x ++ r_seen r) noise p (more ++ concat (r_seen r))) as (st4 & E4 & _ & _ & _ & D); auto.
    { rewrite concat_app, Hs, <- !app_assoc. reflexivity. }
    rewrite fuse_all_app, E1, E2 in E4. injection E4 as <-. apply D. exact Ec. }
  unfold fuse_start in H. destruct (run_fuse a) as [[|] p0 st0| | |] eqn:Ea; try discriminate H.
  - destruct ok; cbn [negb] in H; [|discriminate H]. destruct (run_fuse b) as [dep p1 st1| | |] eqn:Eb; try discriminate H.
    injection H as Hf <-. destruct (G _ _ _ _ _ Eb eq_refl Hf) as (A & B). split; [exact A|]. split; [lia|]. split; [exact B|].
    intros _. split; [reflexivity|]. intros (p & noise & more & Hh & Hp & Hs).
    destruct (C68_port _ _ _ _ Hs Hh Hp) as (st3 & E3 & X1 & X2 & X3 & _). unfold run_fuse in Ea.
    destruct (a_starts a); cbn [negb] in Ea; [|discriminate]. rewrite E3, X2, X3 in Ea. discriminate Ea.
  - injection H as Hf <-. destruct (G _ _ _ _ _ Ea eq_refl Hf) as (A & B). split; [exact A|]. split; [lia|]. split; [exact B|lia].
Qed.
(** A file system that cannot run on the device (no such library, wrong processor: exit code 127 or 126, before and
    after the deployment) crashes the service. *)
Theorem C68_no_crash_refuted :
  ~ (forall a ok b r, unusable a -> unusable b -> fst (fst (fuse_start a ok b r)) <> Crashed).
Proof.
  intros H. assert (U : unusable (att true [] (ExitedWith 127))).
  { split; [reflexivity|]. right. split; [intros (x & y & X); destruct x; discriminate X|]. exists 127. split; [reflexivity|discriminate]. }
  apply (H _ true _ (rst true [] Runs) U U). vm_compute. reflexivity.
Qed.
(** It always does, if the port forwarding starts. *)
Theorem C68_crashes : forall a b r, unusable a -> unusable b -> r_fwd_starts r = true -> fst (fst (fuse_start a true b r)) = Crashed.
Proof.
  intros a b r Ha Hb Hr. destruct (unusable_run _ Ha) as (q & st0 & E0). destruct (unusable_run _ Hb) as (q1 & st1 & E1).
  unfold fuse_start. rewrite E0, E1. cbn [negb]. unfold forward_and_wait. rewrite Hr. reflexivity.
Qed.
(** A start that fails early crashes the service as well: the session is destroyed, and stopping it uses the port forwarding
    that was never started. E.g. if ssh cannot be run. *)
Theorem C68_failure_reported_refuted :
  ~ (forall a ok b r, fst (fst (fuse_start a ok b r)) = StartError -> start_session a ok b r = StartError).
Proof.
  intros H. specialize (H (att false [] Runs) true (att true [] Runs) (rst true [] Runs) eq_refl). discriminate H.
Qed.
(** A failure is reported if the processes could be started and kept track of. *)
Theorem C68_failure_reported_partial : forall a ok b r,
  a_starts a = true -> a_end a <> Lost -> a_starts b = true -> a_end b <> Lost ->
  fst (fst (fuse_start a ok b r)) = StartError -> start_session a ok b r = StartError.
Proof.
  intros a ok b r Ha La Hb Lb H.
  assert (NF : forall x, a_starts x = true -> a_end x <> Lost -> run_fuse x <> RunFailed).
  { intros x Hx Lx. unfold run_fuse. rewrite Hx. cbn [negb]. destruct (fuse_all fuse_init (a_seen x)) as [st|]; [|discriminate].
    destruct (f_checked st); [discriminate|]. destruct (a_end x); congruence. }
  assert (FW : forall fuse p st, exists y, forward_and_wait fuse p st r = (y, mgr fuse true)).
  { intros fuse p st. unfold forward_and_wait. destruct (r_fwd_starts r); cbn; [|eauto]. destruct fuse; cbn; [|eauto].
    destruct (fuse_all st (r_seen r)) as [s|]; [|eauto]. destruct (f_conn s); [eauto|]. destruct (r_end r); eauto. }
  unfold start_session. unfold fuse_start in *. destruct (run_fuse a) as [[|] p0 st0| | |] eqn:Ea; try discriminate H.
  - destruct ok; cbn [negb] in *; [|reflexivity]. destruct (run_fuse b) as [dep p1 st1| | |] eqn:Eb; try discriminate H.
    + destruct (FW (negb dep) p1 st1) as (y & Ey). rewrite Ey in *. cbn in H. subst y. destruct dep; reflexivity.
    + exfalso. exact (NF b Hb Lb Eb).
  - destruct (FW true p0 st0) as (y & Ey). rewrite Ey in *. cbn in H. subst y. reflexivity.
  - exfalso. exact (NF a Ha La Ea).
Qed.
(** An old file system that says so and exits is deployed - if its words arrive before the news of its exit, which is not
    certain (C69). Otherwise the start fails. *)
Theorem C68_old_deployed_refuted :
  ~ (forall a b r p pieces x noise more, a_starts a = true -> a_end a = ExitedWith 0 ->
       pieces = a_seen a ++ x -> ~ occurs fuse_is noise -> ~ occurs fuse_is more -> concat pieces = noise ++ says_old ++ more ->
       works b r p -> exists m n, fuse_start a true b r = (Started (Z.of_N p), m, n)).
Proof.
  intros H.
  assert (N0 : forall l, contains l fuse_is = false -> ~ occurs fuse_is l) by (intros l E X; apply contains_iff in X; congruence).
  assert (N1 : forall l, contains l fport = false -> ~ occurs fport l) by (intros l E X; apply contains_iff in X; congruence).
  destruct (H (att true [] (ExitedWith 0)) (att true [says_port 4711] Runs) (rst true [says_connected] (ExitedWith 0)) 4711 [says_old] [says_old] [] [])
    as (m & n & E); try reflexivity; try (apply N0; reflexivity).
  - split; [reflexivity|]. split; [lia|]. split; [reflexivity|]. split.
    + exists [], []. split; [split; [apply N1; reflexivity|apply N0; reflexivity]|reflexivity].
    + apply contains_iff. vm_compute. reflexivity.
  - vm_compute in E. discriminate E.
Qed.
Example C68_example :
  let hello := [72;101;108;108;111;10] in  (* a login message *)
  let a := att true [hello ++ [99;100;99;95]; skipn 4 says_old] (ExitedWith 0) in
  let b := att true [hello; firstn 9 (says_port 4711); skipn 9 (says_port 4711)] Runs in
  let r := rst true [firstn 5 says_connected; skipn 5 says_connected] Runs in
  unusable a /\ works b r 4711 /\ fuse_start a true b r = (Started 4711%Z, mgr true true, 1%nat).
Proof.
  cbv zeta.
  assert (N0 : forall l, contains l fuse_is = false -> ~ occurs fuse_is l) by (intros l E X; apply contains_iff in X; congruence).
  assert (N1 : forall l, contains l fport = false -> ~ occurs fport l) by (intros l E X; apply contains_iff in X; congruence).
  split; [|split].
  - split; [reflexivity|]. left. exists [72;101;108;108;111;10], []. split; [apply N0; reflexivity|]. split; [apply N0; reflexivity|]. vm_compute. reflexivity.
  - split; [reflexivity|]. split; [lia|]. split; [reflexivity|]. split.
    + exists [72;101;108;108;111;10], []. split; [split; [apply N1; reflexivity|apply N0; reflexivity]|vm_compute; reflexivity].
    + apply contains_iff. vm_compute. reflexivity.
  - vm_compute. reflexivity.
Qed.
