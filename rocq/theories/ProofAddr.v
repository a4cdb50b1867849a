(** Proofs about ModelAddr.v *)
From Verif Require Import Base ListX ModelAddr SpecAddr.
From Verif Require ModelSource.
Local Open Scope N_scope.

Lemma strip_spec p l r : strip p l = Some r <-> l = p ++ r.
Proof.
  revert l. induction p as [|c p IH]; intros l; cbn [strip app]; [split; [intro E; injection E as ->; reflexivity|intros ->; reflexivity]|].
  destruct l as [|x l]; [split; discriminate|]. destruct (N.eqb_spec x c) as [->|Hne].
  - rewrite IH. split; [intros ->; reflexivity|intro E; injection E as ->; reflexivity].
  - split; [discriminate|]. intro E. injection E as -> _. congruence.
Qed.
Lemma strip_none p l : strip p l = None <-> forall r, l <> p ++ r.
Proof.
  split.
  - intros E r H. apply strip_spec in H. congruence.
  - intro H. destruct (strip p l) as [r|] eqn:E; [|reflexivity]. apply strip_spec in E. destruct (H r E).
Qed.

Lemma span_spec p l a b : span p l = (a, b) -> l = a ++ b /\ Forall (fun c => p c = true) a /\ (forall c r, b = c :: r -> p c = false).
Proof.
  revert a b. induction l as [|c l IH]; intros a b E; cbn [span] in E.
  - injection E as <- <-. split; [reflexivity|]. split; [constructor|discriminate].
  - destruct (p c) eqn:Ec.
    + destruct (span p l) as [a' b']. injection E as <- <-. destruct (IH a' b' eq_refl) as (-> & H2 & H3).
      split; [reflexivity|]. split; [constructor; assumption|exact H3].
    + injection E as <- <-. split; [reflexivity|]. split; [constructor|]. intros x r E. injection E as <- <-. exact Ec.
Qed.
(** Nothing longer can be split off. *)
Lemma span_longest (p : byte -> bool) a b a' b' : a ++ b = a' ++ b' -> (forall c r, b = c :: r -> p c = false) -> Forall (fun c => p c = true) a' ->
  exists m, a = a' ++ m /\ b' = m ++ b.
Proof.
  revert a'. induction a as [|x a IH]; intros a' E Hb Ha.
  - destruct a' as [|y a']; [exists []; split; [reflexivity|symmetry; exact E]|]. cbn in E. inversion Ha as [|? ? Hy _]; subst. specialize (Hb y _ eq_refl). congruence.
  - destruct a' as [|y a']; [exists (x :: a); split; [reflexivity|symmetry; exact E]|]. cbn in E. injection E as <- E. inversion Ha; subst.
    destruct (IH a' E Hb ltac:(assumption)) as (m & -> & ->). exists m. split; reflexivity.
Qed.

Lemma host_char_spec c : host_char c = true <-> c <> 58 /\ c <> 94 /\ c <> 63 /\ c <> 47.
Proof. unfold host_char. rewrite negb_true_iff, !orb_false_iff, !N.eqb_neq. tauto. Qed.
Lemma digit_spec c : digit c = true <-> is_digit c.
Proof. unfold digit, is_digit. rewrite andb_true_iff, !N.leb_le. tauto. Qed.
Lemma dot_spec c : dot c = true <-> c <> 10 /\ c <> 13.
Proof. unfold dot. rewrite negb_true_iff, orb_false_iff, !N.eqb_neq. tauto. Qed.
Lemma Forall_iff' {A} (P Q : A -> Prop) l : (forall x, P x <-> Q x) -> Forall P l <-> Forall Q l.
Proof. intro H. split; apply Forall_impl; intros x Hx; apply H, Hx. Qed.

(** The part after "://": groups of a match. *)
Definition rest_matches (l host port rest : bytes) : Prop :=
  l = host ++ port ++ rest /\ host <> [] /\ Forall (fun c => host_char c = true) host /\
  (port = [] \/ exists d, port = 58 :: d /\ d <> [] /\ Forall (fun c => digit c = true) d) /\ Forall (fun c => dot c = true) rest.

Lemma parse_rest_spec proto default l :
  match parse_rest proto default l with
  | Some u => exists h p r, rest_matches l h p r /\ u = mku proto h (match p with [] => default | _ :: d => d end) /\
      forall h' p' r', rest_matches l h' p' r' -> (length h' <= length h)%nat /\ (h' = h -> (length p' <= length p)%nat)
  | None => forall h p r, ~ rest_matches l h p r
  end.
Proof.
  unfold parse_rest. destruct (span host_char l) as [h r] eqn:Eh. apply span_spec in Eh. destruct Eh as (El & Hh & Hr).
  assert (Hmax : forall h' p' r', rest_matches l h' p' r' -> exists m, h = h' ++ m /\ p' ++ r' = m ++ r).
  { intros h' p' r' (E & _ & H' & _). apply (span_longest host_char); [congruence|exact Hr|exact H']. }
  destruct h as [|x h0] eqn:Eh0.
  { intros h1 p1 r1 H. destruct (Hmax _ _ _ H) as (m & E & _). destruct H as (_ & Hn & _). destruct h1; [congruence|discriminate]. }
  rewrite <- Eh0 in *. assert (Hne : h <> []) by (rewrite Eh0; discriminate). clear Eh0 x h0.
  (* the port *)
  set (pr := match r with c :: r1 => if c =? 58 then let (d, r2) := span digit r1 in match d with [] => ([], r) | _ => (d, r2) end else ([], r) | [] => ([], r) end).
  assert (Hport : exists p r2 d, pr = (d, r2) /\ r = p ++ r2 /\ (p = [] /\ d = [] \/ p = 58 :: d /\ d <> [] /\ Forall (fun c => digit c = true) d) /\
    forall p' r', p' ++ r' = r -> (p' = [] \/ exists d, p' = 58 :: d /\ d <> [] /\ Forall (fun c => digit c = true) d) -> exists m, p = p' ++ m /\ r' = m ++ r2).
  { unfold pr. destruct r as [|c r1].
    - exists [], [], []. split; [reflexivity|]. split; [reflexivity|]. split; [left; auto|]. intros p' r' E _. apply app_eq_nil in E. destruct E as [-> ->]. exists []. auto.
    - destruct (N.eqb_spec c 58) as [->|Hc].
      + destruct (span digit r1) as [d r2] eqn:Ed. apply span_spec in Ed. destruct Ed as (E1 & Hd & Hr2).
        destruct d as [|x d0] eqn:Ed0.
        * exists [], (58 :: r1), []. split; [reflexivity|]. split; [reflexivity|]. split; [left; auto|].
          intros p' r' E [->|(d' & -> & Hd' & HF)]; [exists []; auto|]. exfalso. cbn in E. injection E as E. destruct d' as [|y d']; [congruence|].
          inversion HF as [|? ? Hy _]; subst. rewrite (Hr2 y (d' ++ r')) in Hy; [discriminate|symmetry; exact E].
        * rewrite <- Ed0 in *. assert (d <> []) by (rewrite Ed0; discriminate). clear Ed0.
          exists (58 :: d), r2, d. split; [reflexivity|]. split; [rewrite E1; reflexivity|]. split; [right; auto|].
          intros p' r' E [->|(d' & -> & Hd' & HF)]; [exists (58 :: d); split; [reflexivity|]; rewrite E1 in E; exact E|].
          cbn in E. injection E as E. destruct (span_longest digit d r2 d' r') as (m & Em & Em'); [rewrite <- E1; symmetry; exact E|exact Hr2|exact HF|].
          exists m. split; [rewrite Em; reflexivity|exact Em'].
      + exists [], (c :: r1), []. split; [reflexivity|]. split; [reflexivity|]. split; [left; auto|].
        intros p' r' E [->|(d' & -> & _)]; [exists []; auto|]. cbn in E. injection E as E _. congruence. }
  destruct Hport as (p & r2 & d & -> & Er & Hp & Hpm). cbv iota beta.
  assert (Hbest : forall h' p' r', rest_matches l h' p' r' -> Forall (fun c => dot c = true) r2).
  { intros h' p' r' H. pose proof H as (_ & _ & _ & Hp' & Hd'). destruct (Hmax _ _ _ H) as (m & E1 & E2).
    destruct m as [|y m].
    - cbn in E2. destruct (Hpm p' r' E2 Hp') as (m & _ & ->). apply Forall_app in Hd'. apply Hd'.
    - destruct Hp' as [->|(d' & -> & _ & _)].
      + cbn in E2. rewrite E2 in Hd'. rewrite Er in Hd'. inversion Hd' as [|? ? _ Hd2]; subst. rewrite !Forall_app in Hd2. apply Hd2.
      + exfalso. cbn in E2. injection E2 as <- _. rewrite E1 in Hh. apply Forall_app in Hh. destruct Hh as [_ Hh]. inversion Hh as [|? ? Hx _]; subst. discriminate Hx. }
  destruct (forallb dot r2) eqn:Edot.
  - exists h, p, r2. split; [|split].
    + split; [congruence|]. split; [exact Hne|]. split; [exact Hh|]. split; [|apply Forall_forall, forallb_forall, Edot].
      destruct Hp as [[-> _]|(-> & H1 & H2)]; [left; reflexivity|right; exists d; auto].
    + destruct h; [congruence|]. f_equal. destruct Hp as [[-> ->]|(-> & H1 & _)]; [reflexivity|]. destruct d; [congruence|reflexivity].
    + intros h' p' r' H. pose proof H as (E & _ & _ & Hp' & _). destruct (Hmax _ _ _ H) as (m & E1 & E2). split; [rewrite E1, app_length; lia|].
      intros ->. assert (m = []) as -> by (apply (app_inv_head h); rewrite app_nil_r; symmetry; exact E1).
      cbn in E2. destruct (Hpm p' r' E2 Hp') as (m & -> & _). rewrite app_length. lia.
  - destruct h; [congruence|]. intros h' p' r' H. apply Hbest in H. apply Forall_forall with (P := fun c => dot c = true) in H || idtac.
    assert (forallb dot r2 = true); [apply forallb_forall; rewrite Forall_forall in H; exact H|congruence].
Qed.

Lemma matches_split u proto h p r : matches u proto h p r <->
  (proto = s_http /\ exists l, u = (s_http ++ s_css) ++ l /\ rest_matches l h p r) \/ (proto = s_https /\ exists l, u = (s_https ++ s_css) ++ l /\ rest_matches l h p r).
Proof.
  unfold matches, rest_matches.
  rewrite (Forall_iff' (fun c => c <> 58 /\ c <> 94 /\ c <> 63 /\ c <> 47) (fun c => host_char c = true) h) by (intro; symmetry; apply host_char_spec).
  rewrite (Forall_iff' (fun c => c <> 10 /\ c <> 13) (fun c => dot c = true) r) by (intro; symmetry; apply dot_spec).
  assert (Hd : (p = [] \/ (exists d, p = 58 :: d /\ d <> [] /\ Forall is_digit d)) <-> (p = [] \/ (exists d, p = 58 :: d /\ d <> [] /\ Forall (fun c => digit c = true) d))).
  { split; (intros [H|(d & H1 & H2 & H3)]; [left; exact H|right; exists d; split; [exact H1|]; split; [exact H2|]]); (eapply Forall_impl; [|exact H3]); intros; apply digit_spec; assumption. }
  rewrite Hd. clear Hd. split.
  - intros (E & [->| ->] & H); [left|right]; (split; [reflexivity|]); exists (h ++ p ++ r); (split; [exact E|]); tauto.
  - intros [(-> & l & E & -> & H)|(-> & l & E & -> & H)]; (split; [exact E|]); tauto.
Qed.

Lemma parse_spec u : match parse u with
  | Some x => exists p r, best_match (lower u) (protocol x) (host x) p r /\
      port x = match p with _ :: d => d | [] => match protocol x with [104; 116; 116; 112] => [56; 48] | _ => [52; 52; 51] end end
  | None => forall proto h p r, ~ matches (lower u) proto h p r
  end.
Proof.
  unfold parse. remember (lower u) as l eqn:El. clear El.
  destruct (strip (s_https ++ s_css) l) as [r|] eqn:E1.
  - apply strip_spec in E1.
    assert (Hm : forall proto h p r', matches l proto h p r' <-> proto = s_https /\ rest_matches r h p r').
    { intros. rewrite matches_split. rewrite E1. split.
      - intros [(-> & l' & E & H)|(-> & l' & E & H)]; [discriminate E|]. apply app_inv_head in E. subst l'. auto.
      - intros [-> H]. right. split; [reflexivity|]. exists r. auto. }
    pose proof (parse_rest_spec s_https [52; 52; 51] r) as H. destruct (parse_rest s_https [52; 52; 51] r) as [x|].
    + destruct H as (h & p & r2 & H1 & -> & H2). exists p, r2. cbn [protocol host port]. split; [|destruct p; reflexivity].
      split; [apply Hm; auto|]. intros proto' h' p' r' Hm'. apply Hm in Hm'. destruct Hm' as [-> Hm']. split; [reflexivity|]. eapply H2. exact Hm'.
    + intros proto h p r' Hm'. apply Hm in Hm'. eapply H. apply Hm'.
  - rewrite strip_none in E1. destruct (strip (s_http ++ s_css) l) as [r|] eqn:E2.
    + apply strip_spec in E2.
      assert (Hm : forall proto h p r', matches l proto h p r' <-> proto = s_http /\ rest_matches r h p r').
      { intros. rewrite matches_split. rewrite E2. split.
        - intros [(-> & l' & E & H)|(-> & l' & E & H)]; [|discriminate E]. apply app_inv_head in E. subst l'. auto.
        - intros [-> H]. left. split; [reflexivity|]. exists r. auto. }
      pose proof (parse_rest_spec s_http [56; 48] r) as H. destruct (parse_rest s_http [56; 48] r) as [x|].
      * destruct H as (h & p & r2 & H1 & -> & H2). exists p, r2. cbn [protocol host port]. split; [|destruct p; reflexivity].
        split; [apply Hm; auto|]. intros proto' h' p' r' Hm'. apply Hm in Hm'. destruct Hm' as [-> Hm']. split; [reflexivity|]. eapply H2. exact Hm'.
      * intros proto h p r' Hm'. apply Hm in Hm'. eapply H. apply Hm'.
    + rewrite strip_none in E2. intros proto h p r' Hm. apply matches_split in Hm. destruct Hm as [(_ & l' & E & _)|(_ & l' & E & _)]; [eapply E2|eapply E1]; exact E.
Qed.

Lemma lower_spec l : lower_case l (lower l).
Proof. unfold lower. induction l as [|c l IH]; [constructor|]. cbn [map]. constructor; [|exact IH]. unfold lower_char. destruct ((65 <=? c) && (c <=? 90)); reflexivity. Qed.
Lemma lower_idem l : lower (lower l) = lower l.
Proof.
  unfold lower. rewrite map_map. apply map_ext. intro c. unfold lower_char at 1. destruct ((65 <=? lower_char c) && (lower_char c <=? 90)) eqn:E; [|reflexivity].
  unfold lower_char in *. destruct ((65 <=? c) && (c <=? 90)) eqn:E2; [|congruence]. lia.
Qed.

(** ** scp *)
Lemma lower_char_letter c x : 97 <= x <= 122 -> lower_char c = x <-> c = x \/ c = x - 32.
Proof. intro H. unfold lower_char. destruct ((65 <=? c) && (c <=? 90)) eqn:E; lia. Qed.

Lemma scp_here l : (exists rest, strip s_scp (lower l) = Some rest /\ ((hd 0 rest =? 0) || (hd 0 rest =? 46) || (hd 0 rest =? 32)) = true) <-> exists b, scp_at l [] b /\ b = skipn 3 l.
Proof.
  split.
  - intros (rest & E & Hn). apply strip_spec in E. destruct l as [|s [|c [|p b]]]; try discriminate E.
    cbn in E. injection E as Es Ec Ep Er. exists b. split; [|reflexivity]. exists s, c, p. split; [reflexivity|].
    apply lower_char_letter in Es; [|lia]. apply lower_char_letter in Ec; [|lia]. apply lower_char_letter in Ep; [|lia].
    split; [exact Es|]. split; [exact Ec|]. split; [exact Ep|]. destruct b as [|x b]; [left; reflexivity|right]. exists x, b. split; [reflexivity|].
    subst rest. cbn [map hd] in Hn. unfold lower_char in Hn. destruct ((65 <=? x) && (x <=? 90)) eqn:Ex; lia.
  - intros (b & (s & c & p & -> & Hs & Hc & Hp & Hb) & _). exists (lower b). split.
    + apply strip_spec. cbn. rewrite (proj2 (lower_char_letter s 115 ltac:(lia)) Hs), (proj2 (lower_char_letter c 99 ltac:(lia)) Hc), (proj2 (lower_char_letter p 112 ltac:(lia)) Hp). reflexivity.
    + destruct Hb as [->|(x & r & -> & [->|[->| ->]])]; reflexivity.
Qed.

Lemma scp_at_cons c l a b : scp_at (c :: l) (c :: a) b <-> scp_at l a b.
Proof.
  split; intros (s & d & p & E & H); exists s, d, p; (split; [|exact H]); cbn in *; congruence.
Qed.
Lemma scp_at_cons_inv c l a b : scp_at (c :: l) a b -> (a = [] \/ exists a', a = c :: a' /\ scp_at l a' b).
Proof.
  destruct a as [|x a]; [auto|]. intro H. right. pose proof H as (s & d & p & E & _). cbn [app] in E. assert (Ex : x = c) by congruence. subst x. exists a. split; [reflexivity|]. exact (proj1 (scp_at_cons c l a b) H).
Qed.

Lemma scp_to_sftp_spec l : match scp_to_sftp l with
  | Some r => exists a b, scp_at l a b /\ (forall a' b', scp_at l a' b' -> (length a <= length a')%nat) /\ r = a ++ s_sftp ++ b
  | None => forall a b, ~ scp_at l a b
  end.
Proof.
  induction l as [|c l IH].
  - cbn. intros a b (s & d & p & E & _). destruct a; discriminate.
  - cbn [scp_to_sftp].
    assert (Hno : (forall b, ~ scp_at (c :: l) [] b) ->
      match option_map (cons c) (scp_to_sftp l) with
      | Some r => exists a b, scp_at (c :: l) a b /\ (forall a' b', scp_at (c :: l) a' b' -> (length a <= length a')%nat) /\ r = a ++ s_sftp ++ b
      | None => forall a b, ~ scp_at (c :: l) a b
      end).
    { intro Hn. destruct (scp_to_sftp l) as [r|]; cbn [option_map].
      - destruct IH as (a & b & H1 & H2 & ->). exists (c :: a), b. split; [apply scp_at_cons, H1|]. split; [|reflexivity].
        intros a' b' H'. apply scp_at_cons_inv in H' as H''. destruct H'' as [->|(a2 & -> & H'')]; [destruct (Hn _ H')|]. cbn. specialize (H2 _ _ H''). lia.
      - intros a b H. apply scp_at_cons_inv in H as H'. destruct H' as [->|(a2 & -> & H')]; [apply (Hn _ H)|apply (IH _ _ H')]. }
    pose proof (scp_here (c :: l)) as Hh.
    assert (Hat : forall b, scp_at (c :: l) [] b -> exists b, scp_at (c :: l) [] b /\ b = skipn 3 (c :: l)).
    { intros b H. exists b. split; [exact H|]. destruct H as (s & d & p & E & _). cbn [app] in E. rewrite E. reflexivity. }
    destruct (strip s_scp (lower (c :: l))) as [rest|].
    + destruct ((hd 0 rest =? 0) || (hd 0 rest =? 46) || (hd 0 rest =? 32)) eqn:En.
      * destruct (proj1 Hh) as (b & Hb & Eb); [exists rest; auto|]. exists [], b. split; [exact Hb|]. split; [cbn; lia|]. rewrite Eb. reflexivity.
      * apply Hno. intros b H. destruct (proj2 Hh (Hat b H)) as (rest' & E' & En'). injection E' as <-. congruence.
    + apply Hno. intros b H. destruct (proj2 Hh (Hat b H)) as (rest' & E' & _). discriminate.
Qed.

Lemma starts_with_spec p l : starts_with p l = true <-> begins p l.
Proof.
  unfold starts_with, begins. destruct (strip p l) as [r|] eqn:E.
  - apply strip_spec in E. split; [eauto|reflexivity].
  - rewrite strip_none in E. split; [discriminate|]. intros [b H]. destruct (E b H).
Qed.
Lemma contains_spec p l : contains p l = true <-> has p l.
Proof.
  induction l as [|c l IH]; cbn [contains]; rewrite orb_true_iff, starts_with_spec.
  - split; [intros [[b H]|H]; [exists [], b; exact H|discriminate]|]. intros (a & b & H). left. destruct a; [exists b; exact H|discriminate].
  - rewrite IH. split.
    + intros [[b H]|(a & b & H)]; [exists [], b; exact H|exists (c :: a), b; cbn; congruence].
    + intros ([|x a] & b & H); [left; exists b; exact H|right]. cbn in H. injection H as _ H. exists a, b. exact H.
Qed.
Lemma app_inj_len' {A} (a b c d : list A) : length a = length c -> a ++ b = c ++ d -> a = c /\ b = d.
Proof. revert c. induction a as [|x a IH]; intros [|y c] L E; cbn in *; try discriminate; [auto|]. injection E as -> E. destruct (IH c ltac:(congruence) E). subst. auto. Qed.
(** |b| is at least as long as |a|, and not longer. *)
Lemma app_inj_prefix {A} (a b x y : list A) : a ++ x = b ++ y -> (length a <= length b)%nat -> (forall m z : list A, b = a ++ m -> m <> [] -> False) -> b = a.
Proof.
  revert b. induction a as [|c a IH]; intros b E L H.
  - destruct b as [|d b]; [reflexivity|]. destruct (H (d :: b) [] eq_refl). discriminate.
  - destruct b as [|d b]; [cbn in L; lia|]. cbn in E. injection E as -> E. f_equal. apply IH; [exact E|cbn in L; lia|].
    intros m z -> Hm. apply (H m z); [reflexivity|exact Hm].
Qed.
