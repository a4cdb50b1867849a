(** C79: URLs, scp commands and architectures are recognised. *)
From Verif Require Import Base ListX ModelAddr SpecAddr ProofAddr.
From Verif Require ModelSource.
Local Open Scope N_scope.

(** ** Url::Parse *)
(** The text in lower case matches the regular expression, or there is an error; protocol and
    host are the groups of the preferred match; the port is the group without its colon, or
    80 for http and 443 for https. *)
Theorem C79_url : forall u x, parse u = Some x ->
  exists p r, best_match (lower u) (protocol x) (host x) p r /\
    (p <> [] -> p = 58 :: port x) /\
    (p = [] -> protocol x = [104; 116; 116; 112] -> port x = [56; 48]) /\
    (p = [] -> protocol x = [104; 116; 116; 112; 115] -> port x = [52; 52; 51]).
Proof.
  intros u x E. pose proof (parse_spec u) as H. rewrite E in H. destruct H as (p & r & Hb & Hp). exists p, r. split; [exact Hb|].
  destruct Hb as [(_ & _ & _ & _ & Hport & _) _]. destruct Hport as [->|(d & -> & _ & _)].
  - split; [congruence|]. split; intros _ Ep; rewrite Ep in Hp; exact Hp.
  - split; [intros _; rewrite Hp; reflexivity|]. split; discriminate.
Qed.
Theorem C79_url_error : forall u, parse u = None <-> forall proto h p r, ~ matches (lower u) proto h p r.
Proof.
  intro u. pose proof (parse_spec u) as H. destruct (parse u) as [x|].
  - destruct H as (p & r & [Hm _] & _). split; [discriminate|]. intro Hn. destruct (Hn _ _ _ _ Hm).
  - split; [intros _; exact H|reflexivity].
Qed.
Theorem C79_lower : forall u, lower_case u (lower u).
Proof. exact lower_spec. Qed.
(** Case does not matter. *)
Theorem C79_url_case : forall u v, lower u = lower v -> parse u = parse v.
Proof. intros u v E. unfold parse. rewrite E. reflexivity. Qed.
(** protocol://host:port with anything after it that does not start with a digit is parsed into
    just these. *)
Theorem C79_url_round_trip : forall proto h d r, proto = [104; 116; 116; 112] \/ proto = [104; 116; 116; 112; 115] ->
  h <> [] -> Forall (fun c => c <> 58 /\ c <> 94 /\ c <> 63 /\ c <> 47) h -> d <> [] -> Forall is_digit d ->
  Forall (fun c => c <> 10 /\ c <> 13) r -> (forall c q, r = c :: q -> ~ is_digit c) -> lower (h ++ r) = h ++ r ->
  parse (proto ++ [58; 47; 47] ++ h ++ [58] ++ d ++ r) = Some (mku proto h d).
Proof.
  intros proto h d r Hpr Hh HF Hd HD HR Hnd Hl.
  assert (Hll : lower (proto ++ [58; 47; 47] ++ h ++ [58] ++ d ++ r) = proto ++ [58; 47; 47] ++ h ++ [58] ++ d ++ r).
  { assert (La : forall a b, lower (a ++ b) = lower a ++ lower b) by (intros; apply map_app).
    rewrite La in Hl. assert (Hlen : length (lower h) = length h) by apply map_length. destruct (app_inj_len' _ _ _ _ Hlen Hl) as [H1 H2].
    rewrite !La, H1, H2. f_equal; [destruct Hpr as [->| ->]; reflexivity|]. f_equal. f_equal. f_equal. f_equal.
    clear -HD. induction HD as [|c d Hc HD IH]; [reflexivity|]. cbn [lower map]. f_equal; [|exact IH]. unfold lower_char. unfold is_digit in Hc. destruct ((65 <=? c) && (c <=? 90)) eqn:E; [lia|reflexivity]. }
  assert (Hm : matches (lower (proto ++ [58; 47; 47] ++ h ++ [58] ++ d ++ r)) proto h (58 :: d) r).
  { rewrite Hll. split; [reflexivity|]. split; [exact Hpr|]. split; [exact Hh|]. split; [exact HF|]. split; [right; exists d; auto|exact HR]. }
  pose proof (parse_spec (proto ++ [58; 47; 47] ++ h ++ [58] ++ d ++ r)) as H.
  destruct (parse (proto ++ [58; 47; 47] ++ h ++ [58] ++ d ++ r)) as [[p1 h1 d1]|]; [|destruct (H _ _ _ _ Hm)].
  cbn [protocol host port] in H. destruct H as (p & r1 & [Hm1 Hb] & Hport). destruct (Hb _ _ _ _ Hm) as (<- & Hle & Hle2).
  rewrite Hll in Hm1. destruct Hm1 as (E & _ & _ & HF1 & Hp1 & _). apply app_inv_head in E. apply app_inv_head in E.
  (* the host *)
  assert (h1 = h) as ->.
  { apply (app_inj_prefix h h1 (58 :: d ++ r) (p ++ r1)); [exact E|exact Hle|]. intros m x Em Hx. subst h1.
    rewrite <- app_assoc in E. apply app_inv_head in E. cbn in E. destruct m as [|y m]; [congruence|]. cbn in E. injection E as <- _.
    apply Forall_app in HF1. destruct HF1 as [_ HF1]. inversion HF1 as [|? ? Hy _]; subst. tauto. }
  specialize (Hle2 eq_refl). apply app_inv_head in E. destruct Hp1 as [->|(d' & -> & Hd' & HD')]; [cbn in Hle2; lia|].
  cbn in E. injection E as E. cbn in Hport. subst d1. f_equal. f_equal.
  apply (app_inj_prefix d d' r r1); [exact E|cbn in Hle2; lia|]. intros m x Em Hx. subst d'. rewrite <- app_assoc in E. apply app_inv_head in E.
  destruct m as [|y m]; [congruence|]. cbn in E. apply Forall_app in HD'. destruct HD' as [_ HD']. inversion HD' as [|? ? Hy _]; subst. destruct (Hnd y _ eq_refl Hy).
Qed.

(** ** ScpToSftpCommand *)
(** The first "scp" that is followed by a blank, a dot, or nothing becomes "sftp", everything else
    stays; the result is empty if and only if there is none. *)
Theorem C79_scp : forall l a b, scp_at l a b -> (forall a' b', scp_at l a' b' -> (length a <= length a')%nat) ->
  scp_to_sftp_command l = a ++ [115; 102; 116; 112] ++ b.
Proof.
  intros l a b H Hmin. unfold scp_to_sftp_command. pose proof (scp_to_sftp_spec l) as Hs. destruct (scp_to_sftp l) as [r|]; [|destruct (Hs _ _ H)].
  destruct Hs as (a1 & b1 & H1 & Hmin1 & ->). specialize (Hmin _ _ H1). specialize (Hmin1 _ _ H).
  destruct H as (s & c & p & E & _). destruct H1 as (s1 & c1 & p1 & E1 & _). rewrite E in E1.
  apply app_inj_len' in E1; [|lia]. destruct E1 as [<- E1]. injection E1 as _ _ _ <-. reflexivity.
Qed.
Theorem C79_scp_none : forall l, scp_to_sftp_command l = [] <-> forall a b, ~ scp_at l a b.
Proof.
  intro l. unfold scp_to_sftp_command. pose proof (scp_to_sftp_spec l) as Hs. destruct (scp_to_sftp l) as [r|].
  - destruct Hs as (a1 & b1 & H1 & _ & ->). split; [intro E; destruct a1; discriminate E|]. intro H. destruct (H _ _ H1).
  - split; [intros _; exact Hs|reflexivity].
Qed.
(** A program scp in a directory without blanks, dots and NULs. *)
Theorem C79_scp_program : forall dir b, Forall (fun c => c <> 0 /\ c <> 46 /\ c <> 32) dir ->
  (b = [] \/ exists x r, b = x :: r /\ (x = 0 \/ x = 46 \/ x = 32)) ->
  scp_to_sftp_command (dir ++ [115; 99; 112] ++ b) = dir ++ [115; 102; 116; 112] ++ b.
Proof.
  intros dir b HF Hb. apply C79_scp; [exists 115, 99, 112; auto 6|].
  intros a' b' (s & c & p & E & _ & _ & _ & Hb'). destruct (Nat.le_gt_cases (length dir) (length a')) as [H|H]; [exact H|exfalso].
  pose proof (f_equal (@length _) E) as Hl.
  rewrite !app_length in Hl. cbn [length] in Hl. destruct Hb' as [->|(x & r & -> & Hx)]; [cbn [length] in Hl; lia|].
  assert (En : nth_error (dir ++ [115; 99; 112] ++ b) (length a' + 3) = Some x).
  { rewrite E, nth_error_app2 by lia. replace (length a' + 3 - length a')%nat with 3%nat by lia. reflexivity. }
  destruct (Nat.lt_ge_cases (length a' + 3) (length dir)) as [L|L].
  - rewrite nth_error_app1 in En by exact L. apply nth_error_In in En. rewrite Forall_forall in HF. apply HF in En. lia.
  - rewrite nth_error_app2 in En by exact L. destruct (length a' + 3 - length dir)%nat as [|[|[|k]]] eqn:Ek; cbn in En; try (injection En as <-; lia). lia.
Qed.

(** ** Architectures *)
Theorem C79_detect : forall uname processor a, detect uname processor = Some a <->
  (a = Linux /\ exists o, uname = Some o /\ begins [76; 105; 110; 117; 120; 32] o /\ has [120; 56; 54; 95; 54; 52] o) \/
  (a = Windows /\ exists o, uname = Some o /\ begins [77; 83; 89; 83; 95] o /\ has [120; 56; 54; 95; 54; 52] o) \/
  (a = Windows /\ (forall o, uname = Some o -> ~ (has [120; 56; 54; 95; 54; 52] o /\ (begins [76; 105; 110; 117; 120; 32] o \/ begins [77; 83; 89; 83; 95] o))) /\
    exists o, processor = Some o /\ has [65; 77; 68; 54; 52] o).
Proof.
  intros uname processor a. unfold detect, from_uname, from_processor.
  assert (Hb : forall p l, starts_with p l = false <-> ~ begins p l) by (intros; rewrite <- starts_with_spec; destruct (starts_with p l); split; congruence).
  assert (Hc : forall p l, contains p l = false <-> ~ has p l) by (intros; rewrite <- contains_spec; destruct (contains p l); split; congruence).
  assert (H2 : forall x : option bytes, (match x with Some o => if contains s_amd64 o then Some Windows else None | None => None end = Some a) <-> (a = Windows /\ exists o, x = Some o /\ has [65; 77; 68; 54; 52] o)).
  { intros [o|].
    - destruct (contains s_amd64 o) eqn:E.
      + apply contains_spec in E. split; [intro Ea; injection Ea as <-; eauto|intros [-> _]; reflexivity].
      + apply Hc in E. split; [discriminate|]. intros (_ & o' & Eo & Ho). injection Eo as <-. destruct (E Ho).
    - split; [discriminate|]. intros (_ & o & E & _). discriminate. }
  destruct uname as [o|].
  - destruct (starts_with s_linux o) eqn:E1; [apply starts_with_spec in E1|apply Hb in E1]; destruct (contains s_x86_64 o) eqn:E3; [apply contains_spec in E3|apply Hc in E3|apply contains_spec in E3|apply Hc in E3]; cbn [andb].
    + split; [intro Ea; injection Ea as <-; left; eauto|]. intros [[-> _]|[(-> & o' & Eo & Hm & _)|(_ & Hn & _)]]; [reflexivity| |].
      * injection Eo as <-. destruct E1 as [q1 E1]. destruct Hm as [q2 Hm]. rewrite E1 in Hm. discriminate.
      * destruct (Hn o eq_refl). auto.
    + replace (starts_with s_msys o && false) with false by (symmetry; apply andb_false_r). rewrite H2. split.
      * intros (-> & H). right. right. split; [reflexivity|]. split; [|exact H]. intros o' Eo (Hx & _). injection Eo as <-. destruct (E3 Hx).
      * intros [(-> & o' & Eo & _ & Hx)|[(-> & o' & Eo & _ & Hx)|(-> & _ & H)]]; [| |split; [reflexivity|exact H]]; injection Eo as <-; destruct (E3 Hx).
    + destruct (starts_with s_msys o) eqn:E4; cbn [andb]; [apply starts_with_spec in E4|apply Hb in E4].
      * split; [intro Ea; injection Ea as <-; right; left; eauto|]. intros [(-> & o' & Eo & Hx & _)|[(-> & _)|(_ & Hn & _)]]; [|reflexivity|].
        -- injection Eo as <-. destruct (E1 Hx).
        -- destruct (Hn o eq_refl). auto.
      * rewrite H2. split.
        -- intros (-> & H). right. right. split; [reflexivity|]. split; [|exact H]. intros o' Eo (_ & [Hx|Hx]); injection Eo as <-; [destruct (E1 Hx)|destruct (E4 Hx)].
        -- intros [(-> & o' & Eo & Hx & _)|[(-> & o' & Eo & Hx & _)|(-> & _ & H)]]; [| |split; [reflexivity|exact H]]; injection Eo as <-; [destruct (E1 Hx)|destruct (E4 Hx)].
    + replace (starts_with s_msys o && false) with false by (symmetry; apply andb_false_r). rewrite H2. split.
      * intros (-> & H). right. right. split; [reflexivity|]. split; [|exact H]. intros o' Eo (Hx & _). injection Eo as <-. destruct (E3 Hx).
      * intros [(-> & o' & Eo & _ & Hx)|[(-> & o' & Eo & _ & Hx)|(-> & _ & H)]]; [| |split; [reflexivity|exact H]]; injection Eo as <-; destruct (E3 Hx).
  - rewrite H2. split.
    + intros (-> & H). right. right. split; [reflexivity|]. split; [discriminate|exact H].
    + intros [(_ & o' & Eo & _)|[(_ & o' & Eo & _)|H]]; try discriminate. split; apply H.
Qed.
(** Windows is guessed for drives and shares, and for paths that have '\' but not '/'; Linux
    otherwise, in particular for whatever starts with '~' or '/'. *)
Theorem C79_guess : forall d, guess d = Windows <->
  ~ begins [126] d /\ ~ begins [47] d /\ (ModelSource.drive_prefix d <> [] \/ (In 92 d /\ ~ In 47 d)).
Proof.
  intro d. unfold guess.
  assert (Hb : forall p l, starts_with p l = false <-> ~ begins p l) by (intros; rewrite <- starts_with_spec; destruct (starts_with p l); split; congruence).
  assert (Hi : forall c, contains [c] d = true <-> In c d).
  { intro c. rewrite contains_spec. split.
    - intros (a & b & ->). apply in_or_app. right. left. reflexivity.
    - intro H. apply in_split in H. destruct H as (a & b & ->). exists a, b. reflexivity. }
  destruct (starts_with [126] d) eqn:E1; cbn [orb]; [apply starts_with_spec in E1; split; [discriminate|tauto]|apply Hb in E1].
  destruct (starts_with [47] d) eqn:E2; [apply starts_with_spec in E2; split; [discriminate|tauto]|apply Hb in E2].
  destruct (ModelSource.drive_prefix d) as [|c q]; [|split; [intros _; repeat split; auto; left; discriminate|reflexivity]].
  rewrite <- (Hi 47), <- (Hi 92). unfold bytes, byte in *. destruct (contains [47] d); destruct (contains [92] d); cbn [andb negb];
  (split; [intro H; first [discriminate H|split; [exact E1|split; [exact E2|right; split; [reflexivity|discriminate]]]]|
           intros (_ & _ & [H|[H H']]); [destruct (H eq_refl)|try discriminate H; try destruct (H' eq_refl); try reflexivity]]).
Qed.

(** ** Claims that are false *)
(** "winscp.exe", "C:\path\to\scp" (remote_util.cc:78): a directory "C:\my scp tools\" is changed instead of the program. *)
Theorem C79_refuted_scp_directory : exists dir, scp_to_sftp_command (dir ++ [32; 116; 92; 115; 99; 112; 46; 101; 120; 101]) = [67; 58; 92; 115; 102; 116; 112] ++ [32; 116; 92; 115; 99; 112; 46; 101; 120; 101].
Proof. exists [67; 58; 92; 115; 99; 112]. vm_compute. reflexivity. Qed.
(** A URL that is parsed has the host it names: not with a user name and a password, not with an
    IPv6 address, not with a fragment after the host. *)
Theorem C79_refuted_host : 
  parse [104; 116; 116; 112; 58; 47; 47; 117; 58; 112; 64; 104] = Some (mku s_http [117] [56; 48]) /\             (* http://u:p@h *)
  parse [104; 116; 116; 112; 58; 47; 47; 91; 58; 58; 49; 93] = Some (mku s_http [91] [56; 48]) /\                (* http://[::1] *)
  parse [104; 116; 116; 112; 58; 47; 47; 104; 35; 102] = Some (mku s_http [104; 35; 102] [56; 48]).             (* http://h#f *)
Proof. vm_compute. auto. Qed.
(** The port is a port. *)
Theorem C79_refuted_port : parse [104; 116; 116; 112; 58; 47; 47; 104; 58; 57; 57; 57; 57; 57] = Some (mku s_http [104] [57; 57; 57; 57; 57]) /\  (* http://h:99999 *)
  parse [104; 116; 116; 112; 58; 47; 47; 104; 58; 120] = Some (mku s_http [104] [56; 48]).                        (* http://h:x *)
Proof. vm_compute. auto. Qed.
(** An ARM server is reported, not taken for something else: an x64 emulator's environment on
    Windows says AMD64 whatever uname says. *)
Theorem C79_refuted_uname_is_decisive : detect (Some [76; 105; 110; 117; 120; 32; 97; 97; 114; 99; 104; 54; 52]) (Some [65; 77; 68; 54; 52]) = Some Windows.
Proof. vm_compute. reflexivity. Qed.

(** ** Examples *)
Example C79_example_url : parse [72; 84; 84; 80; 115; 58; 47; 47; 72; 58; 55; 54; 63; 116] = Some (mku s_https [104] [55; 54]).  (* HTTPs://H:76?t *)
Proof. vm_compute. reflexivity. Qed.
Example C79_example_url_error : parse [104; 116; 116; 112; 115; 115; 58; 47; 47; 100] = None.  (* httpss://d *)
Proof. vm_compute. reflexivity. Qed.
Example C79_example_scp : scp_to_sftp_command [83; 67; 80; 32; 45; 66] = [115; 102; 116; 112; 32; 45; 66].  (* SCP -B *)
Proof. vm_compute. reflexivity. Qed.
Example C79_example_guess : guess [67; 58; 47; 120] = Windows /\ guess [97; 47; 98] = Linux /\ guess [97; 92; 98] = Windows /\ guess [126; 92] = Linux.
Proof. vm_compute. auto. Qed.
Example C79_example_detect : detect (Some (s_linux ++ s_x86_64)) None = Some Linux.
Proof. vm_compute. reflexivity. Qed.
