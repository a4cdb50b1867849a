(** C66: reading the server's output. *)
From Verif Require Import Base SpecOutput ModelOutput ModelText SpecText ProofText ModelPort PropPort ModelServer PropServer.
From Coq Require Import ZArith Lia List.
Import ListNotations.
Local Open Scope N_scope.
Local Notation str := (list N).

(** ** Markers *)
Lemma split_ne sep (s : str) : split_at sep s <> [].
Proof. destruct s as [|c r]; cbn; [discriminate|]. destruct (c =? sep); [discriminate|]. destruct (split_at sep r); discriminate. Qed.
Lemma parts_loop_spec : forall (s : str) inside err out,
  parts_loop inside err out (split_at marker s) =
  (ends_inside inside s, err ++ error_text inside s, out ++ plain_text inside s).
Proof.
  induction s as [|c s IH]; intros inside err out; cbn [split_at ends_inside error_text plain_text].
  - cbn. destruct inside; rewrite ?app_nil_r; reflexivity.
  - destruct (c =? marker) eqn:Ec.
    + cbn [parts_loop]. pose proof (split_ne marker s) as Hn. destruct (split_at marker s) as [|p ps] eqn:E; [congruence|].
      destruct inside; cbn [negb]; rewrite ?app_nil_r; apply IH.
    + pose proof (split_ne marker s) as Hn. destruct (split_at marker s) as [|p ps] eqn:E; [congruence|].
      pose proof (IH inside (if inside then err ++ [c] else err) (if inside then out else out ++ [c])) as H.
      cbn [parts_loop] in *. destruct inside; rewrite <- !app_assoc in H; cbn [app] in H; exact H.
Qed.
Lemma no_marker_text (s : str) : existsb (fun c => c =? marker) s = false ->
  ends_inside false s = false /\ error_text false s = [] /\ plain_text false s = s.
Proof.
  induction s as [|c s IH]; intros H; [repeat split; reflexivity|]. cbn in H. apply orb_false_iff in H. destruct H as (Hc & Hs).
  cbn [ends_inside error_text plain_text]. rewrite Hc. destruct (IH Hs) as (-> & -> & ->). repeat split; reflexivity.
Qed.
Lemma text_app : forall (s t : str) inside,
  ends_inside inside (s ++ t) = ends_inside (ends_inside inside s) t /\
  error_text inside (s ++ t) = error_text inside s ++ error_text (ends_inside inside s) t /\
  plain_text inside (s ++ t) = plain_text inside s ++ plain_text (ends_inside inside s) t.
Proof.
  induction s as [|c s IH]; intros t inside; [repeat split; reflexivity|].
  cbn [app ends_inside error_text plain_text]. destruct (c =? marker); [apply IH|].
  destruct (IH t inside) as (-> & -> & ->). destruct inside; repeat split; reflexivity.
Qed.
Lemma cstr_id (s : str) : ~ In 0 s -> cstr s = s.
Proof.
  induction s as [|c s IH]; intros H; [reflexivity|]. cbn. destruct (N.eqb_spec c 0) as [->|Hc].
  - exfalso. apply H. left. reflexivity.
  - rewrite IH; [reflexivity|]. intros X. apply H. right. exact X.
Qed.

(** ** Searching *)
Lemma find_seq (P : nat -> bool) n i : find P (seq 0 n) = Some i <-> (i < n)%nat /\ P i = true /\ forall j, (j < i)%nat -> P j = false.
Proof.
  assert (G : forall n k i, find P (seq k n) = Some i <-> (k <= i < k + n)%nat /\ P i = true /\ forall j, (k <= j < i)%nat -> P j = false).
  { clear. induction n as [|n IH]; intros k i; cbn [seq find].
    - split; [discriminate|lia].
    - destruct (P k) eqn:E.
      + split.
        * intros H. inversion H; subst. split; [lia|]. split; [exact E|]. lia.
        * intros (H1 & H2 & H3). destruct (Nat.eq_dec k i) as [->|Hne]; [reflexivity|].
          rewrite (H3 k) in E by lia. discriminate.
      + rewrite IH. split.
        * intros (H1 & H2 & H3). split; [lia|]. split; [exact H2|]. intros j Hj.
          destruct (Nat.eq_dec j k) as [->|Hne]; [exact E|]. apply H3. lia.
        * intros (H1 & H2 & H3). assert (k <> i) by congruence. split; [lia|]. split; [exact H2|]. intros j Hj. apply H3. lia. }
  rewrite G. split; intros (H1 & H2 & H3); (split; [lia|]; split; [exact H2|]; intros j Hj; apply H3; lia).
Qed.
Lemma find_rev (P : nat -> bool) n i : find P (rev (seq 0 n)) = Some i <-> (i < n)%nat /\ P i = true /\ forall j, (i < j < n)%nat -> P j = false.
Proof.
  induction n as [|n IH]; [cbn; split; [discriminate|lia]|].
  rewrite seq_S, rev_app_distr. cbn [rev app find]. cbn [Nat.add]. destruct (P n) eqn:E.
  - split.
    + intros H. inversion H; subst. split; [lia|]. split; [exact E|]. lia.
    + intros (H1 & H2 & H3). destruct (Nat.eq_dec n i) as [->|Hne]; [reflexivity|]. rewrite (H3 n) in E by lia. discriminate.
  - rewrite IH. split.
    + intros (H1 & H2 & H3). split; [lia|]. split; [exact H2|]. intros j Hj.
      destruct (Nat.eq_dec j n) as [->|Hne]; [exact E|]. apply H3. lia.
    + intros (H1 & H2 & H3). assert (n <> i) by congruence. split; [lia|]. split; [exact H2|]. intros j Hj. apply H3. lia.
Qed.
Lemma find_none_seq (P : nat -> bool) l : (forall j, In j l -> P j = false) -> find P l = None.
Proof. induction l as [|x l IH]; intros H; [reflexivity|]. cbn. rewrite (H x (or_introl eq_refl)). apply IH. intros j Hj. apply H. right. exact Hj. Qed.
Lemma find_ext_in (P Q : nat -> bool) l : (forall j, In j l -> P j = Q j) -> find P l = find Q l.
Proof.
  induction l as [|x l IH]; intros H; [reflexivity|]. cbn. rewrite (H x (or_introl eq_refl)).
  rewrite IH; [reflexivity|]. intros j Hj. apply H. right. exact Hj.
Qed.
Lemma is_prefix_app (w l x : str) : (length w <= length l)%nat -> is_prefix w (l ++ x) = is_prefix w l.
Proof.
  revert l. induction w as [|c w IH]; intros l H; [reflexivity|]. destruct l as [|d l]; [cbn in H; lia|].
  cbn. rewrite IH; [reflexivity|cbn in H; lia].
Qed.
Lemma at_pos_app (w s x : str) i : (i + length w <= length s)%nat -> at_pos w (s ++ x) i = at_pos w s i.
Proof.
  intros H. unfold at_pos. rewrite skipn_app. rewrite (proj2 (Nat.sub_0_le i (length s))) by lia. cbn [skipn].
  apply is_prefix_app. rewrite skipn_length. lia.
Qed.
Lemma at_pos_len (w s : str) i : w <> [] -> at_pos w s i = true -> (i + length w <= length s)%nat.
Proof.
  intros Hw H. unfold at_pos in H. apply is_prefix_iff in H. destruct H as (v & H).
  apply (f_equal (@length N)) in H. rewrite skipn_length, app_length in H.
  destruct w; [congruence|]. cbn [length] in *. lia.
Qed.
Lemma at_pos_nth (w s : str) i k : at_pos w s i = true -> (k < length w)%nat -> nth_error s (i + k) = nth_error w k.
Proof.
  intros H Hk. unfold at_pos in H. apply is_prefix_iff in H. destruct H as (v & H).
  assert (Hi : (i <= length s)%nat).
  { destruct (Nat.le_gt_cases i (length s)); [assumption|]. rewrite skipn_all2 in H by lia.
    destruct w; [cbn in Hk; lia|discriminate]. }
  rewrite <- (firstn_skipn i s), H. rewrite nth_error_app2; rewrite firstn_length, Nat.min_l by exact Hi; [|lia].
  replace (i + k - i)%nat with k by lia. apply nth_error_app1. exact Hk.
Qed.
Lemma at_pos_occurs (w s : str) i : at_pos w s i = true -> occurs w s.
Proof.
  intros H. unfold at_pos in H. apply is_prefix_iff in H. destruct H as (v & H).
  exists (firstn i s), v. rewrite <- H. symmetry. apply firstn_skipn.
Qed.
Lemma occurs_at (w s : str) : occurs w s -> exists i, (i <= length s)%nat /\ at_pos w s i = true.
Proof.
  intros (a & b & ->). exists (length a). split; [rewrite app_length; lia|]. unfold at_pos.
  rewrite skipn_app, skipn_all, Nat.sub_diag. cbn [skipn app]. apply is_prefix_iff. eauto.
Qed.
Lemma str_find_none (w s : str) : ~ occurs w s -> str_find w s = None.
Proof.
  intros H. apply find_none_seq. intros j _. destruct (at_pos w s j) eqn:E; [|reflexivity].
  exfalso. apply H. exact (at_pos_occurs _ _ _ E).
Qed.

(** ** The port does not depend on what follows *)
Lemma parse_mono (o x : str) : parse_port o <> Ok None -> parse_port (o ++ x) = parse_port o.
Proof.
  unfold parse_port. destruct (str_find listening o) as [i|] eqn:E; [|congruence]. intros _.
  unfold str_find in E. apply find_seq in E. destruct E as (Hi & Hp & Hmin).
  assert (Hl : (i + length listening <= length o)%nat) by (apply at_pos_len; [discriminate|exact Hp]).
  assert (E2 : str_find listening (o ++ x) = Some i).
  { apply find_seq. split; [rewrite app_length; lia|]. split; [rewrite at_pos_app by exact Hl; exact Hp|].
    intros j Hj. rewrite at_pos_app by lia. apply Hmin. exact Hj. }
  rewrite E2.
  assert (E3 : str_rfind port_ (o ++ x) i = str_rfind port_ o i).
  { unfold str_rfind. rewrite app_length, !Nat.min_l by lia. apply find_ext_in. intros j Hj.
    apply in_rev in Hj. apply List.in_seq in Hj. apply at_pos_app. change (length port_) with 5%nat. change (length listening) with 19%nat in Hl. lia. }
  rewrite E3. destruct (str_rfind port_ o i) as [pp|] eqn:Er; [|reflexivity].
  unfold str_rfind in Er. apply find_rev in Er. destruct Er as (Hpp & _).
  change (length port_) with 5%nat in *. change (length listening) with 19%nat in Hl.
  assert (Hpi : (pp <= i)%nat) by lia.
  rewrite skipn_app. rewrite (proj2 (Nat.sub_0_le (pp + 5) (length o))) by lia. cbn [skipn].
  rewrite firstn_app. rewrite skipn_length.
  rewrite (proj2 (Nat.sub_0_le (i - pp) (length o - (pp + 5)))) by lia. cbn [firstn]. rewrite app_nil_r. reflexivity.
Qed.

(** ** All pieces *)
Definition inv (st : ost) (s : str) : Prop :=
  o_inside st = ends_inside false s /\ o_err st = error_text false s /\
  ((o_port st = 0%Z /\ o_out st = plain_text false s /\ parse_port (o_out st) = Ok None) \/
   (o_port st <> 0%Z /\ parse_port (plain_text false s) = Ok (Some (o_port st)))).
Lemma parse_nonzero o v : parse_port o = Ok (Some v) -> v <> 0%Z.
Proof.
  unfold parse_port. destruct (str_find listening o); [|discriminate]. destruct (str_rfind port_ o n); [|discriminate].
  destruct (atoi _); cbn; try discriminate. destruct (Z.eqb_spec a 0); [discriminate|]. congruence.
Qed.
Lemma parse_total o : parse_port o <> OutOfFuel.
Proof.
  unfold parse_port. destruct (str_find listening o); [|discriminate]. destruct (str_rfind port_ o n); [|discriminate].
  set (s := firstn _ _). unfold atoi. destruct (match skip_space s with [] => _ | _ => _ end) as [neg q].
  destruct (_ && _)%bool; cbn; [|discriminate]. destruct (_ =? 0)%Z; discriminate.
Qed.
Lemma handle_step st s d : inv st s -> ~ In 0 d ->
  match handle st d with
  | Ok st2 => inv st2 (s ++ d)
  | bad => parse_port (plain_text false (s ++ d)) = match bad with Fail => Fail | UB => UB | _ => OutOfFuel end /\ bad <> OutOfFuel
  end.
Proof.
  intros (Hi & He & Hp) Hd. unfold handle. rewrite (cstr_id _ Hd).
  assert (T : (if o_inside st || existsb (fun c => c =? marker) d then parts_loop (o_inside st) (o_err st) [] (split_at marker d) else (o_inside st, o_err st, d))
    = (ends_inside (o_inside st) d, o_err st ++ error_text (o_inside st) d, plain_text (o_inside st) d)).
  { destruct (o_inside st); cbn [orb]; [apply parts_loop_spec|].
    destruct (existsb (fun c => c =? marker) d) eqn:Em; [apply parts_loop_spec|].
    destruct (no_marker_text d Em) as (-> & -> & ->). rewrite app_nil_r. reflexivity. }
  rewrite T. destruct (text_app s d false) as (A1 & A2 & A3).
  rewrite Hi, He in *. destruct Hp as [(Hp & Ho & Hn)|(Hp & Hn)].
  - rewrite Hp. cbn [Z.eqb]. rewrite Ho. rewrite <- A3.
    destruct (parse_port (plain_text false (s ++ d))) as [[v|]| | |] eqn:Ep; cbn [bind].
    + split; [symmetry; exact A1|]. split; [symmetry; exact A2|]. right. cbn [o_port]. split; [exact (parse_nonzero _ _ Ep)|exact Ep].
    + split; [symmetry; exact A1|]. split; [symmetry; exact A2|]. left. cbn [o_port o_out]. auto.
    + split; [reflexivity|discriminate].
    + split; [reflexivity|discriminate].
    + exfalso. exact (parse_total _ Ep).
  - rewrite (proj2 (Z.eqb_neq _ _) Hp). split; [symmetry; exact A1|]. split; [symmetry; exact A2|]. right. cbn [o_port].
    split; [exact Hp|]. rewrite A3. rewrite parse_mono; [exact Hn|congruence].
Qed.
Lemma handle_all_spec : forall pieces st s, inv st s -> Forall (fun d => ~ In 0 d) pieces ->
  match handle_all st pieces with
  | Ok st2 => inv st2 (s ++ concat pieces)
  | bad => parse_port (plain_text false (s ++ concat pieces)) = match bad with Fail => Fail | UB => UB | _ => OutOfFuel end /\ bad <> OutOfFuel
  end.
Proof.
  induction pieces as [|d r IH]; intros st s Hi Hf; cbn [handle_all concat].
  - rewrite app_nil_r. exact Hi.
  - pose proof (handle_step st s d Hi (Forall_inv Hf)) as H. destruct (handle st d) as [st2| | |]; cbn [bind].
    + pose proof (IH st2 (s ++ d) H (Forall_inv_tail Hf)) as G. rewrite app_assoc. exact G.
    + destruct H as (H & _). split; [|discriminate]. rewrite app_assoc.
      destruct (text_app (s ++ d) (concat r) false) as (_ & _ & ->). rewrite parse_mono; [exact H|congruence].
    + destruct H as (H & _). split; [|discriminate]. rewrite app_assoc.
      destruct (text_app (s ++ d) (concat r) false) as (_ & _ & ->). rewrite parse_mono; [exact H|congruence].
    + destruct H as (_ & H). congruence.
Qed.
Lemma inv_init : inv init_out [].
Proof. split; [reflexivity|]. split; [reflexivity|]. left. repeat split; reflexivity. Qed.

(** How ssh cuts the output does not matter: neither for the port, nor for error messages, nor for
    whether the output is rejected. *)
Theorem C66_pieces : forall pieces pieces2,
  Forall (fun d => ~ In 0 d) pieces -> Forall (fun d => ~ In 0 d) pieces2 -> concat pieces = concat pieces2 ->
  match handle_all init_out pieces, handle_all init_out pieces2 with
  | Ok a, Ok b => o_port a = o_port b /\ o_err a = o_err b /\ o_inside a = o_inside b
  | Fail, Fail => True
  | UB, UB => True
  | _, _ => False
  end.
Proof.
  intros p1 p2 H1 H2 Hc.
  pose proof (handle_all_spec p1 init_out [] inv_init H1) as S1.
  pose proof (handle_all_spec p2 init_out [] inv_init H2) as S2.
  rewrite <- Hc in S2. cbn [app] in *. set (s := concat p1) in *.
  unfold inv in *.
  destruct (handle_all init_out p1) as [a| | |]; destruct (handle_all init_out p2) as [b| | |]; try exact Logic.I;
    try (exfalso; intuition congruence).
  destruct S1 as (A1 & A2 & A3). destruct S2 as (B1 & B2 & B3). split; [|split; congruence].
  destruct A3 as [(A3 & A4 & A5)|(A3 & A4)]; destruct B3 as [(B3 & B4 & B5)|(B3 & B4)]; congruence.
Qed.

(** The error messages are what is between markers ... *)
Theorem C66_errors : forall pieces st,
  Forall (fun d => ~ In 0 d) pieces -> handle_all init_out pieces = Ok st ->
  o_err st = error_text false (concat pieces).
Proof.
  intros p st H E. pose proof (handle_all_spec p init_out [] inv_init H) as S1. rewrite E in S1. apply S1.
Qed.
Lemma error_plain : forall (s t : str) inside, ~ In marker s ->
  error_text inside (s ++ t) = (if inside then s else []) ++ error_text inside t.
Proof.
  induction s as [|c s IH]; intros t inside H; [destruct inside; reflexivity|].
  cbn [app error_text]. destruct (N.eqb_spec c marker) as [->|Hc]; [exfalso; apply H; left; reflexivity|].
  rewrite IH by (intros X; apply H; right; exact X). destruct inside; reflexivity.
Qed.
(** ... so that a message which the server sends before it exits arrives, wherever it is cut and
    whatever else was printed. *)
Theorem C66_message : forall pieces st before msg after,
  Forall (fun d => ~ In 0 d) pieces -> handle_all init_out pieces = Ok st ->
  concat pieces = before ++ send_error msg ++ after ->
  ~ In marker before -> ~ In marker msg -> ~ In 0 msg -> ~ In marker after ->
  o_err st = msg.
Proof.
  intros p st b msg a H E Hc Hb Hm Hz Ha. rewrite (C66_errors p st H E), Hc.
  rewrite error_plain by exact Hb. unfold send_error. rewrite (cstr_id _ Hz). cbn [app error_text].
  change (marker =? marker) with true. cbv iota. cbn [negb]. rewrite <- app_assoc. rewrite error_plain by exact Hm.
  cbn [app error_text]. change (marker =? marker) with true. cbv iota. cbn [negb].
  rewrite <- (app_nil_r a). rewrite error_plain by exact Ha. cbn [app error_text]. rewrite app_nil_r. reflexivity.
Qed.
(** A message that contains the marker (the name of a file can) is cut there. *)
Theorem C66_message_refuted :
  ~ (forall msg st, ~ In 0 msg -> handle_all init_out [send_error msg] = Ok st -> o_err st = msg).
Proof.
  intros H. specialize (H [97; 30; 98] (os true [97] [98] 0%Z)).
  assert (Hz : ~ In 0 [97; 30; 98]) by (cbn; intuition discriminate).
  specialize (H Hz). assert (E : handle_all init_out [send_error [97; 30; 98]] = Ok (os true [97] [98] 0%Z)) by (vm_compute; reflexivity).
  specialize (H E). discriminate H.
Qed.

(** ** The port *)
Lemma leading_stop : forall (s : str) acc c r, all_digits s -> is_digit c = false -> leading_digits acc (s ++ c :: r) = leading_digits acc s.
Proof.
  induction s as [|x s IH]; intros acc c r H Hc; cbn [app leading_digits].
  - rewrite Hc. reflexivity.
  - destruct (is_digit x); [|reflexivity]. apply IH; [exact (Forall_inv_tail H)|exact Hc].
Qed.
Lemma atoi_stop n c (r : str) : n < 2 ^ 31 -> is_digit c = false -> atoi (print_dec n ++ c :: r) = Ok (Z.of_N n).
Proof.
  intros Hn Hc. destruct (dec_head n) as (x & t & E & Hd & H1 & H2 & H3).
  pose proof (leading_dec n) as L. destruct (print_dec_ok n) as (Hall & _).
  assert (L2 : leading_digits 0 (print_dec n ++ c :: r) = n) by (rewrite leading_stop by assumption; exact L).
  rewrite E in *. cbn [app] in *. unfold atoi. cbn [skip_space]. rewrite H3.
  rewrite (proj2 (N.eqb_neq _ _) H1), (proj2 (N.eqb_neq _ _) H2). rewrite L2.
  rewrite (proj2 (Z.leb_le _ _)) by lia. rewrite (proj2 (Z.ltb_lt _ _)) by lia. reflexivity.
Qed.
Lemma parse_announced (noise rest : str) p : ~ occurs listening noise -> 1 <= p <= 65535 ->
  parse_port (noise ++ port_ ++ print_dec p ++ colon ++ listening ++ rest) = Ok (Some (Z.of_N p)).
Proof.
  intros Hno Hp. set (dec := print_dec p). set (s := noise ++ port_ ++ dec ++ colon ++ listening ++ rest).
  destruct (print_dec_ok p) as (Hdig & _). fold dec in Hdig.
  set (mid := [111;114;116;32] ++ dec ++ colon).
  assert (Hs : s = noise ++ 80 :: mid ++ listening ++ rest).
  { unfold s, mid, port_, colon. cbn [app]. do 6 f_equal. rewrite <- app_assoc. reflexivity. }
  set (i0 := (length noise + 1 + length mid)%nat).
  assert (Hmid : forall c, In c mid -> c <> 80 /\ c <> 83).
  { intros c Hc. unfold mid in Hc. apply in_app_or in Hc. destruct Hc as [Hc|Hc].
    - cbn in Hc. split; intros ->; intuition discriminate.
    - apply in_app_or in Hc. destruct Hc as [Hc|Hc].
      + unfold all_digits in Hdig. rewrite Forall_forall in Hdig. apply Hdig in Hc. lia.
      + cbn in Hc. split; intros ->; intuition discriminate. }
  assert (Hnth : forall j, (length noise < j < i0)%nat -> exists c, nth_error s j = Some c /\ In c mid).
  { intros j Hj. rewrite Hs. rewrite nth_error_app2 by lia.
    destruct (j - length noise)%nat as [|k] eqn:Ek; [lia|]. cbn [nth_error].
    rewrite nth_error_app1 by (unfold i0 in Hj; lia).
    destruct (nth_error mid k) as [c|] eqn:Ec.
    - exists c. split; [reflexivity|]. exact (nth_error_In _ _ Ec).
    - apply nth_error_None in Ec. unfold i0 in Hj. lia. }
  assert (HP : nth_error s (length noise) = Some 80).
  { rewrite Hs. rewrite nth_error_app2 by lia. rewrite Nat.sub_diag. reflexivity. }
  assert (Hat : skipn i0 s = listening ++ rest).
  { rewrite Hs. unfold i0. change (80 :: mid ++ listening ++ rest) with ((80 :: mid) ++ listening ++ rest).
    rewrite app_assoc. rewrite skipn_app. rewrite skipn_all2 by (rewrite app_length; cbn [length]; lia).
    rewrite app_length. cbn [length]. replace (length noise + 1 + length mid - (length noise + S (length mid)))%nat with 0%nat by lia. reflexivity. }
  assert (Hlen : length s = (i0 + length listening + length rest)%nat).
  { rewrite Hs. unfold i0. rewrite app_length. cbn [length]. rewrite !app_length. lia. }
  assert (Hf : str_find listening s = Some i0).
  { apply find_seq. split; [rewrite Hlen; lia|]. split; [unfold at_pos; rewrite Hat; apply is_prefix_iff; eauto|].
    intros j Hj. destruct (at_pos listening s j) eqn:E; [exfalso|reflexivity].
    destruct (Nat.le_gt_cases j (length noise)) as [Hjn|Hjn].
    - destruct (Nat.le_gt_cases (j + length listening) (length noise)) as [Hin|Hout].
      + apply Hno. apply (at_pos_occurs _ _ j). unfold s in E. rewrite at_pos_app in E by exact Hin. exact E.
      + assert (X := at_pos_nth listening s j (length noise - j) E ltac:(lia)).
        replace (j + (length noise - j))%nat with (length noise) in X by lia. rewrite HP in X. symmetry in X.
        apply nth_error_In in X. cbn in X. intuition discriminate.
    - destruct (Hnth j) as (c & Hc & Hin); [lia|].
      assert (X := at_pos_nth listening s j 0 E ltac:(cbn; lia)). rewrite Nat.add_0_r, Hc in X. inversion X; subst.
      apply Hmid in Hin. destruct Hin. congruence. }
  assert (Hr : str_rfind port_ s i0 = Some (length noise)).
  { unfold str_rfind. rewrite Nat.min_l by lia. apply find_rev. split; [unfold i0; lia|]. split.
    - unfold at_pos, s. rewrite skipn_app, skipn_all, Nat.sub_diag. cbn [skipn app]. apply is_prefix_iff. eauto.
    - intros j Hj. destruct (at_pos port_ s j) eqn:E; [exfalso|reflexivity].
      assert (X := at_pos_nth port_ s j 0 E ltac:(cbn; lia)). rewrite Nat.add_0_r in X.
      destruct (Nat.eq_dec j i0) as [->|Hne].
      + rewrite <- (firstn_skipn i0 s), Hat in X. rewrite nth_error_app2 in X by (rewrite firstn_length; lia).
        rewrite firstn_length, Nat.min_l in X by lia.
        rewrite Nat.sub_diag in X. discriminate X.
      + destruct (Hnth j) as (c & Hc & Hin); [lia|]. rewrite Hc in X. inversion X; subst. apply Hmid in Hin. destruct Hin. congruence. }
  unfold parse_port. rewrite Hf, Hr. change (length port_) with 5%nat.
  assert (Hsub : exists y, firstn (i0 - length noise) (skipn (length noise + 5) s) = dec ++ 58 :: y).
  { unfold s. rewrite app_assoc. rewrite skipn_app. rewrite skipn_all2 by (rewrite app_length; cbn [length port_]; lia).
    rewrite app_length. change (length port_) with 5%nat. rewrite Nat.sub_diag. cbn [skipn app].
    unfold i0, mid. rewrite !app_length. cbn [length colon].
    replace (length noise + 1 + (4 + (length dec + 2)) - length noise)%nat with (length dec + 7)%nat by lia.
    rewrite firstn_app_2. unfold colon. cbn [app firstn]. eauto. }
  destruct Hsub as (y & Hy). rewrite Hy. unfold dec. rewrite atoi_stop by (reflexivity || lia). cbn [bind].
  destruct (Z.eqb_spec (Z.of_N p) 0); [lia|reflexivity].
Qed.
(** The port the server announces is the one the client connects to: whatever was printed before
    (except the announcement's own words), behind or in error messages in between, and however it is cut. *)
Theorem C66_port : forall pieces noise p rest,
  Forall (fun d => ~ In 0 d) pieces ->
  plain_text false (concat pieces) = noise ++ announcement p ++ rest ->
  ~ occurs listening noise -> 1 <= p <= 65535 ->
  exists st, handle_all init_out pieces = Ok st /\ o_port st = Z.of_N p.
Proof.
  intros pieces noise p rest Hf Hs Hno Hp.
  pose proof (handle_all_spec pieces init_out [] inv_init Hf) as G. cbn [app] in G. rewrite Hs in G.
  unfold announcement in G.
  assert (Hpar : parse_port (noise ++ (port_ ++ print_dec p ++ colon ++ listening ++ [10]) ++ rest) = Ok (Some (Z.of_N p))).
  { rewrite <- !app_assoc. apply parse_announced; assumption. }
  destruct (handle_all init_out pieces) as [st| | |].
  - exists st. split; [reflexivity|]. destruct G as (_ & _ & [(A & B & C)|(A & B)]).
    + rewrite Hs in B. rewrite B in C. unfold announcement in C. rewrite Hpar in C. discriminate C.
    + rewrite Hs in B. unfold announcement in B. rewrite Hpar in B. congruence.
  - destruct G as (G & _). congruence.
  - destruct G as (G & _). congruence.
  - destruct G as (_ & G). congruence.
Qed.
(** No port before the announcement is complete. *)
Theorem C66_no_port_early : forall pieces,
  Forall (fun d => ~ In 0 d) pieces -> ~ occurs listening (plain_text false (concat pieces)) ->
  exists st, handle_all init_out pieces = Ok st /\ o_port st = 0%Z.
Proof.
  intros pieces Hf Hno. pose proof (handle_all_spec pieces init_out [] inv_init Hf) as G. cbn [app] in G.
  assert (Hpar : parse_port (plain_text false (concat pieces)) = Ok None).
  { unfold parse_port. rewrite str_find_none by exact Hno. reflexivity. }
  destruct (handle_all init_out pieces) as [st| | |].
  - exists st. split; [reflexivity|]. destruct G as (_ & _ & [(A & _)|(A & B)]); [exact A|congruence].
  - destruct G as (G & _). congruence.
  - destruct G as (G & _). congruence.
  - destruct G as (_ & G). congruence.
Qed.
(** "Server is listening" without a port is an error of the handler. *)
Theorem C66_no_port_fails : forall pieces,
  Forall (fun d => ~ In 0 d) pieces -> occurs listening (plain_text false (concat pieces)) ->
  ~ occurs port_ (plain_text false (concat pieces)) ->
  handle_all init_out pieces = Fail.
Proof.
  intros pieces Hf Ho Hno. pose proof (handle_all_spec pieces init_out [] inv_init Hf) as G. cbn [app] in G.
  assert (Hpar : parse_port (plain_text false (concat pieces)) = Fail).
  { unfold parse_port. set (s := plain_text false (concat pieces)) in *.
    assert (Hs : str_find listening s <> None).
    { destruct (occurs_at _ _ Ho) as (i & Hi & Hp). intros X. unfold str_find in X.
      pose proof (find_none _ _ X i) as Y. rewrite Hp in Y. assert (false = true) by (symmetry; apply Y; apply List.in_seq; lia). discriminate. }
    destruct (str_find listening s) as [i|]; [|congruence].
    assert (Hr : str_rfind port_ s i = None).
    { apply find_none_seq. intros j _. destruct (at_pos port_ s j) eqn:E; [|reflexivity]. exfalso. apply Hno. exact (at_pos_occurs _ _ _ E). }
    rewrite Hr. reflexivity. }
  unfold inv in G. destruct (handle_all init_out pieces) as [st| | |]; [exfalso|reflexivity|exfalso|exfalso]; intuition congruence.
Qed.
Example C66_example :
  let banner := [87;101;108;99;111;109;101;32;80;111;114;116;32;57;10] in   (* "Welcome Port 9\n" *)
  handle_all init_out [banner ++ [80;111]; [114;116;32;53;48]; [48;48;58;32;30;119]; [33;30;83;101;114;118;101;114;32;105;115;32;108;105;115;116;101;110;105;110]; [103;10;98]]
  = Ok (os false [119;33] (banner ++ announcement 5000 ++ [98]) 5000%Z).
Proof. vm_compute. reflexivity. Qed.

(** ** Waiting for the server *)
Lemma wait_outs : forall pieces st st2, o_port st = 0%Z -> handle_all st pieces = Ok st2 -> o_port st2 <> 0%Z ->
  exists v, snd (wait st (map Out pieces)) = ListeningOn v /\ v = o_port st2.
Proof.
  induction pieces as [|d r IH]; intros st st2 H0 H H2; cbn [handle_all map wait] in *.
  - inversion H; subst. congruence.
  - rewrite H0. cbn [Z.eqb negb]. destruct (handle st d) as [st1| | |] eqn:E; try discriminate. cbn [bind] in H.
    destruct (Z.eq_dec (o_port st1) 0) as [Hz|Hz]; [exact (IH _ _ Hz H H2)|].
    assert (Hk : forall l s s2, o_port s <> 0%Z -> handle_all s l = Ok s2 -> o_port s2 = o_port s).
    { clear. induction l as [|x l IH]; intros s s2 Hs H; cbn in H; [congruence|].
      unfold handle in H. destruct (if _ || _ then _ else _) as [[a b] c]. rewrite (proj2 (Z.eqb_neq _ _) Hs) in H. cbn [bind] in H.
      apply IH in H; [exact H|exact Hs]. }
    exists (o_port st1). split; [|symmetry; exact (Hk _ _ _ Hz H)].
    destruct r as [|d2 r]; cbn [map wait]; rewrite (proj2 (Z.eqb_neq _ _) Hz); reflexivity.
Qed.
(** A first attempt to start the server finds the announced port. *)
Theorem C66_wait : forall pieces noise p rest,
  Forall (fun d => ~ In 0 d) pieces ->
  plain_text false (concat pieces) = noise ++ announcement p ++ rest ->
  ~ occurs listening noise -> 1 <= p <= 65535 ->
  snd (wait init_out (map Out pieces)) = ListeningOn (Z.of_N p).
Proof.
  intros pieces noise p rest Hf Hs Hno Hp. destruct (C66_port pieces noise p rest Hf Hs Hno Hp) as (st & E & Ho).
  destruct (wait_outs pieces init_out st eq_refl E) as (v & Hw & ->); [lia|]. rewrite Hw, Ho. reflexivity.
Qed.
(** A second attempt, in the same run of cdc_rsync, keeps the port of the first: if that server announced itself and
    then broke down (255: ssh lost the connection), the client does not wait for the second and connects to the port
    of the first. *)
Theorem C66_second_attempt_refuted :
  ~ (forall evs st code p q,
       1 <= p <= 65535 -> wait init_out evs = (st, HasExited code) -> ~ 51 < code <= 53 ->
       snd (wait st [Out (announcement p)]) = ListeningOn q -> q = Z.of_N p).
Proof.
  intros H. specialize (H [Out (announcement 4000); Exit 255] (os false [] (announcement 4000) 4000%Z) 255 5000 4000%Z).
  assert (A : 1 <= 5000 <= 65535) by lia. assert (B : ~ 51 < 255 <= 53) by lia.
  specialize (H A ltac:(vm_compute; reflexivity) B ltac:(vm_compute; reflexivity)). discriminate H.
Qed.
(** It is right if the first attempt printed neither an announcement nor half an error message. *)
Theorem C66_second_attempt_partial : forall pieces st code noise p rest first,
  Forall (fun d => ~ In 0 d) first -> Forall (fun d => ~ In 0 d) pieces ->
  wait init_out (map Out first ++ [Exit code]) = (st, HasExited code) ->
  ~ occurs listening (plain_text false (concat first)) -> ends_inside false (concat first) = false ->
  plain_text false (concat pieces) = noise ++ announcement p ++ rest ->
  ~ occurs listening (plain_text false (concat first) ++ noise) -> 1 <= p <= 65535 ->
  snd (wait st (map Out pieces)) = ListeningOn (Z.of_N p).
Proof.
  intros pieces st code noise p rest first Hf1 Hf2 Hw Hno Hin Hs Hno2 Hp.
  destruct (C66_no_port_early first Hf1 Hno) as (st1 & E1 & Hz1).
  assert (st = st1).
  { assert (G : forall l s s2, o_port s = 0%Z -> handle_all s l = Ok s2 -> o_port s2 = 0%Z -> fst (wait s (map Out l ++ [Exit code])) = s2).
    { induction l as [|d r IH]; intros s s2 H0 H H2; cbn [handle_all map app wait] in *.
      - rewrite H0. cbn. inversion H; reflexivity.
      - rewrite H0. cbn [Z.eqb negb]. destruct (handle s d) as [s1| | |] eqn:E; try discriminate. cbn [bind] in H.
        destruct (Z.eq_dec (o_port s1) 0) as [Hz|Hz]; [apply IH; assumption|].
        exfalso. apply Hz. rewrite <- H2.
        assert (Hk : forall l s s2, o_port s <> 0%Z -> handle_all s l = Ok s2 -> o_port s2 = o_port s).
        { clear. induction l as [|x l IH]; intros s s2 Hs H; cbn in H; [congruence|].
          unfold handle in H. destruct (if _ || _ then _ else _) as [[a b] c]. rewrite (proj2 (Z.eqb_neq _ _) Hs) in H. cbn [bind] in H.
          apply IH in H; [exact H|exact Hs]. }
        symmetry. exact (Hk _ _ _ Hz H). }
    rewrite <- (G first init_out st1 eq_refl E1 Hz1). rewrite Hw. reflexivity. }
  subst st1.
  assert (Hall : handle_all init_out (first ++ pieces) = handle_all st pieces).
  { clear - E1. revert E1. generalize init_out. induction first as [|d r IH]; intros s E; cbn [handle_all app] in *; [inversion E; reflexivity|].
    destruct (handle s d); cbn [bind] in *; try discriminate. apply IH. exact E. }
  destruct (C66_port (first ++ pieces) (plain_text false (concat first) ++ noise) p rest) as (st2 & E2 & Ho); auto.
  - apply Forall_app. auto.
  - rewrite concat_app. destruct (text_app (concat first) (concat pieces) false) as (_ & _ & ->). rewrite Hin, Hs. rewrite <- app_assoc. reflexivity.
  - rewrite Hall in E2. destruct (wait_outs pieces st st2 Hz1 E2) as (v & Hv & ->); [lia|]. rewrite Hv, Ho. reflexivity.
Qed.

(** An output without a port is rejected by the handler, but nobody hears of it: the start goes on until the time is up
    or the server exits. *)
Lemma rejected_stays : forall pieces st, o_port st = 0%Z -> parse_port (o_out st) = Fail ->
  snd (wait st (map Out pieces ++ [TimeOut])) = TimedOut /\
  forall code, snd (wait st (map Out pieces ++ [Exit code])) = HasExited code.
Proof.
  induction pieces as [|d r IH]; intros st Hz Hp; cbn [map app wait]; rewrite Hz; cbn [Z.eqb negb]; [split; reflexivity|].
  destruct (handle st d) as [s| | |] eqn:E; unfold handle in E;
    destruct (if _ || _ then _ else _) as [[a b] c] eqn:Es; rewrite Hz in E; cbn [Z.eqb] in E;
    (rewrite parse_mono in E by (rewrite Hp; discriminate)); rewrite Hp in E; try discriminate E.
  apply IH; unfold after_error; rewrite Es; cbn [o_port o_out]; [reflexivity|].
  rewrite parse_mono by (rewrite Hp; discriminate). exact Hp.
Qed.
Lemma rejected_waits : forall pieces st, o_port st = 0%Z -> handle_all st pieces = Fail ->
  snd (wait st (map Out pieces ++ [TimeOut])) = TimedOut /\
  forall code, snd (wait st (map Out pieces ++ [Exit code])) = HasExited code.
Proof.
  induction pieces as [|d r IH]; intros st Hz H; cbn [handle_all map app wait] in *; [discriminate|].
  rewrite Hz. cbn [Z.eqb negb]. destruct (handle st d) as [s| | |] eqn:E; cbn [bind] in H; try discriminate H.
  - destruct (Z.eq_dec (o_port s) 0) as [Hs|Hs]; [apply IH; assumption|exfalso].
    assert (Hk : forall l s, o_port s <> 0%Z -> handle_all s l <> Fail).
    { clear. induction l as [|x l IH]; intros s Hs; cbn; [discriminate|].
      unfold handle. destruct (if _ || _ then _ else _) as [[a b] c]. rewrite (proj2 (Z.eqb_neq _ _) Hs). cbn [bind].
      apply IH. exact Hs. }
    exact (Hk _ _ Hs H).
  - apply rejected_stays.
    + unfold after_error. destruct (if _ || _ then _ else _) as [[a b] c]. reflexivity.
    + unfold handle in E. unfold after_error. destruct (if _ || _ then _ else _) as [[a b] c]. rewrite Hz in E. cbn [Z.eqb] in E. cbn [o_out].
      destruct (parse_port (o_out st ++ c)) as [[|]| | |]; cbn [bind] in E; try discriminate E. reflexivity.
Qed.
Theorem C66_rejected_waits : forall pieces, handle_all init_out pieces = Fail ->
  snd (wait init_out (map Out pieces ++ [TimeOut])) = TimedOut /\
  forall code, snd (wait init_out (map Out pieces ++ [Exit code])) = HasExited code.
Proof. intros pieces H. exact (rejected_waits pieces init_out eq_refl H). Qed.
Theorem C66_rejection_noticed_refuted :
  ~ (forall pieces evs, handle_all init_out pieces = Fail -> snd (wait init_out (map Out pieces ++ evs)) <> TimedOut).
Proof.
  intros H. apply (H [listening] [TimeOut]); [vm_compute; reflexivity|].
  apply C66_rejected_waits. vm_compute. reflexivity.
Qed.
