(** Proofs about ModelStats.v *)
From Verif Require Import Base ListX ModelStats SpecStats.

Lemma path_eqb_spec a b : reflect (a = b) (path_eqb a b).
Proof. unfold path_eqb. destruct (list_eq_dec N.eq_dec a b); constructor; assumption. Qed.

Lemma since_snoc l e : since (l ++ [e]) = if is_clear e then [] else since l ++ [e].
Proof.
  induction l as [|x l IH]; cbn [app since existsb].
  - destruct (is_clear e); reflexivity.
  - rewrite existsb_app. cbn [existsb]. rewrite orb_false_r.
    destruct (is_clear e) eqn:Ee.
    + rewrite orb_true_r. exact IH.
    + rewrite orb_false_r. destruct (existsb is_clear l); [exact IH|]. destruct (is_clear x); reflexivity.
Qed.

Lemma run_snoc l e s : run (l ++ [e]) s = (do s1 <- run l s; apply e s1).
Proof.
  revert s. induction l as [|x l IH]; intro s; cbn [app run].
  - change (do s1 <- Ok s; apply e s1) with (apply e s). destruct (apply e s); reflexivity.
  - destruct (apply x s); cbn; [apply IH| | |]; reflexivity.
Qed.

Lemma set_chunk_ok c i x c' : set_chunk c i x = Ok c' -> i < length c /\ c' = firstn i c ++ x :: skipn (S i) c.
Proof. unfold set_chunk. destruct (Nat.ltb_spec i (length c)); intro E; inversion E; auto. Qed.
Lemma set_chunk_length c i x c' : set_chunk c i x = Ok c' -> length c' = length c.
Proof.
  intro E. apply set_chunk_ok in E. destruct E as [Hi ->]. rewrite app_length, firstn_length. cbn [length].
  rewrite skipn_length. lia.
Qed.
Lemma set_chunk_nth c i x c' k : set_chunk c i x = Ok c' -> nth_error c' k = if Nat.eq_dec i k then Some x else nth_error c k.
Proof.
  intro E. apply set_chunk_ok in E. destruct E as [Hi ->].
  assert (Hl : length (firstn i c) = i) by (rewrite firstn_length; lia).
  destruct (Nat.eq_dec i k) as [->|Hne].
  - rewrite nth_error_app2 by lia. rewrite Hl, Nat.sub_diag. reflexivity.
  - destruct (Nat.lt_ge_cases k i).
    + rewrite nth_error_app1 by lia. rewrite <- (firstn_skipn i c) at 2. rewrite nth_error_app1 by lia. reflexivity.
    + rewrite nth_error_app2 by lia. rewrite Hl. destruct (k - i) as [|d] eqn:Ed; [lia|]. cbn [nth_error].
      rewrite <- (firstn_skipn (S i) c) at 2. rewrite nth_error_app2 by (rewrite firstn_length; lia).
      rewrite firstn_length. f_equal. lia.
Qed.

(** ** firsts *)
Lemma firsts_bytes_snoc l x : firsts_bytes (l ++ [x]) = if in_dec (list_eq_dec N.eq_dec) x l then firsts_bytes l else firsts_bytes l ++ [x].
Proof.
  unfold firsts_bytes. rewrite rev_app_distr. cbn [rev app nodup].
  destruct (in_dec (list_eq_dec N.eq_dec) x (rev l)) as [H|H]; destruct (in_dec (list_eq_dec N.eq_dec) x l) as [G|G]; try reflexivity.
  - destruct G. apply in_rev. exact H.
  - destruct H. apply in_rev in G. exact G.
Qed.
Lemma firsts_bytes_In l x : In x (firsts_bytes l) <-> In x l.
Proof. unfold firsts_bytes. rewrite <- in_rev, nodup_In, <- in_rev. reflexivity. Qed.
Lemma firsts_N_snoc l x : firsts_N (l ++ [x]) = if in_dec N.eq_dec x l then firsts_N l else firsts_N l ++ [x].
Proof.
  unfold firsts_N. rewrite rev_app_distr. cbn [rev app nodup].
  destruct (in_dec N.eq_dec x (rev l)) as [H|H]; destruct (in_dec N.eq_dec x l) as [G|G]; try reflexivity.
  - destruct G. apply in_rev. exact H.
  - destruct H. apply in_rev in G. exact G.
Qed.
Lemma firsts_N_In l x : In x (firsts_N l) <-> In x l.
Proof. unfold firsts_N. rewrite <- in_rev, nodup_In, <- in_rev. reflexivity. Qed.
Lemma firsts_N_NoDup l : NoDup (firsts_N l).
Proof. unfold firsts_N. apply NoDup_rev, NoDup_nodup. Qed.

(** ** The recent list *)
Lemma add_recent_in p l : existsb (path_eqb p) l = true <-> In p l.
Proof.
  rewrite existsb_exists. split.
  - intros [x [H E]]. destruct (path_eqb_spec p x) as [->|]; [exact H|discriminate].
  - intro H. exists p. split; [exact H|]. destruct (path_eqb_spec p p); congruence.
Qed.
Lemma add_recent_suffix p l : exists a, (if existsb (path_eqb p) l then l else l ++ [p]) = a ++ add_recent p l.
Proof.
  unfold add_recent. destruct (existsb (path_eqb p) l); [exists []; reflexivity|].
  destruct (Nat.ltb kMaxNumRecentFiles (length (l ++ [p]))); [|exists []; reflexivity].
  destruct l as [|x l]; cbn [app tl]; [exists [p]|exists [x]]; reflexivity.
Qed.

Definition recent_ok (l : list event) (s : stats) : Prop :=
  length (recent s) <= 32 /\ NoDup (recent s) /\ incl (recent s) (paths (since l)) /\
  (forall p q, paths (since l) = q ++ [p] -> In p (recent s)) /\
  (length (firsts_bytes (paths (since l))) <= 32 -> recent s = firsts_bytes (paths (since l))).

Lemma firsts_mono l x : length (firsts_bytes l) <= length (firsts_bytes (l ++ [x])).
Proof. rewrite firsts_bytes_snoc. destruct in_dec; [lia|rewrite app_length; lia]. Qed.

Lemma add_recent_step p l s : recent_ok l s -> forall e s', is_clear e = false ->
  paths [e] = [p] -> recent s' = add_recent p (recent s) -> recent_ok (l ++ [e]) s'.
Proof.
  intros (H1 & H2 & H3 & H4 & H5) e s' He Hp Hr.
  assert (Hs : paths (since (l ++ [e])) = paths (since l) ++ [p]).
  { rewrite since_snoc, He. unfold paths in *. rewrite flat_map_app, Hp. reflexivity. }
  unfold recent_ok. rewrite Hs, Hr. clear Hs Hr Hp He s' e.
  assert (Hin : In p (add_recent p (recent s))).
  { unfold add_recent. destruct (existsb (path_eqb p) (recent s)) eqn:E; [apply add_recent_in, E|].
    destruct (Nat.ltb_spec kMaxNumRecentFiles (length (recent s ++ [p]))) as [Hlt|Hge].
    - destruct (recent s) as [|x r]; [cbn in Hlt; unfold kMaxNumRecentFiles in Hlt; lia|]. cbn [app tl]. apply in_or_app. right. left. reflexivity.
    - apply in_or_app. right. left. reflexivity. }
  split; [|split; [|split; [|split]]].
  - unfold add_recent. destruct (existsb (path_eqb p) (recent s)); [exact H1|].
    destruct (Nat.ltb_spec kMaxNumRecentFiles (length (recent s ++ [p]))) as [Hlt|Hge]; [|exact Hge].
    destruct (recent s) as [|x r]; cbn [app tl length] in *; [lia|]. rewrite app_length in *. cbn [length] in *. lia.
  - destruct (add_recent_suffix p (recent s)) as [a Ha].
    assert (NoDup (a ++ add_recent p (recent s))).
    { rewrite <- Ha. destruct (existsb (path_eqb p) (recent s)) eqn:E; [exact H2|].
      apply NoDup_rev in H2. rewrite <- (rev_involutive (recent s ++ [p])). apply NoDup_rev. rewrite rev_app_distr. cbn [rev app].
      constructor; [|exact H2]. rewrite <- in_rev. intro G. apply add_recent_in in G. congruence. }
    clear -H. induction a as [|y a IH]; [exact H|]. inversion H; auto.
  - intros x Hx. destruct (add_recent_suffix p (recent s)) as [a Ha].
    assert (In x (a ++ add_recent p (recent s))) as G by (apply in_or_app; right; exact Hx).
    rewrite <- Ha in G. apply in_or_app. destruct (existsb (path_eqb p) (recent s)); [left; apply H3, G|].
    apply in_app_or in G. destruct G as [G|G]; [left; apply H3, G|right; exact G].
  - intros p' q E. apply app_inj_tail in E. destruct E as [_ <-]. exact Hin.
  - intro Hle. pose proof (firsts_mono (paths (since l)) p) as Hm. specialize (H5 ltac:(lia)).
    rewrite firsts_bytes_snoc in *. unfold add_recent. rewrite H5.
    destruct (in_dec (list_eq_dec N.eq_dec) p (paths (since l))) as [Hi|Hn].
    + replace (existsb (path_eqb p) (firsts_bytes (paths (since l)))) with true; [reflexivity|].
      symmetry. apply add_recent_in, firsts_bytes_In, Hi.
    + destruct (existsb (path_eqb p) (firsts_bytes (paths (since l)))) eqn:E; [apply add_recent_in in E; rewrite firsts_bytes_In in E; tauto|].
      destruct (Nat.ltb_spec kMaxNumRecentFiles (length (firsts_bytes (paths (since l)) ++ [p]))) as [Hlt|Hge]; [unfold kMaxNumRecentFiles in Hlt; lia|reflexivity].
Qed.

(** ** The whole state *)
Lemma thread_color_in t l : thread_color t l <> None <-> In t (map fst l).
Proof.
  induction l as [|[u c] l IH]; cbn [thread_color map fst]; [cbn; tauto|].
  destruct (N.eqb_spec u t) as [->|Hne]; [cbn; split; [auto|discriminate]|]. rewrite IH. cbn. intuition congruence.
Qed.
Definition colors_ok (l : list event) (s : stats) : Prop :=
  threads s = length (firsts_N (threads_in (since l))) /\
  forall t k, thread_color t (colors s) = Some k <-> nth_error (firsts_N (threads_in (since l))) k = Some t.

Definition totals_ok (l : list event) (s : stats) : Prop :=
  total_streamed s = sum (streamed_sizes (since l)) /\ total_cached s = sum (cached_sizes (since l)).
Definition sizes_ok (l : list event) (s : stats) : Prop := forall p, length (chunks_of p s) = size_of p (since l).

Lemma resize_length c n : length (resize c n) = n.
Proof. unfold resize. rewrite app_length, firstn_length, repeat_length. lia. Qed.
Lemma lookup_cons p q c r : lookup p ((q, c) :: r) = if list_eq_dec N.eq_dec q p then Some c else lookup p r.
Proof. cbn. unfold path_eqb. destruct (list_eq_dec N.eq_dec q p); reflexivity. Qed.
Lemma size_of_snoc p l e : size_of p (l ++ [e]) = match e with Init q m => if list_eq_dec N.eq_dec q p then m else size_of p l | _ => size_of p l end.
Proof. unfold size_of. rewrite fold_left_app. reflexivity. Qed.
Lemma sum_app a b : sum (a ++ b) = (sum a + sum b)%N.
Proof. unfold sum. induction a as [|x a IH]; cbn [app fold_right]; [lia|]. rewrite IH. lia. Qed.

Definition good (l : list event) (s : stats) : Prop := recent_ok l s /\ colors_ok l s /\ totals_ok l s /\ sizes_ok l s.

Lemma good_empty : good [] empty.
Proof.
  unfold good, recent_ok, colors_ok, totals_ok, sizes_ok. cbn. split; [|split; [|split]]; auto.
  - split; [lia|]. split; [constructor|]. split; [intros x []|]. split; [|reflexivity]. intros p q E. destruct q; discriminate.
  - split; [reflexivity|]. intros t k. destruct k; cbn; split; discriminate.
Qed.

Lemma colors_step t l s e : colors_ok l s -> is_clear e = false -> threads_in [e] = [t] -> forall s',
  colors s' = (if match thread_color t (colors s) with Some _ => true | None => false end then colors s else (t, threads s) :: colors s) ->
  threads s' = (if match thread_color t (colors s) with Some _ => true | None => false end then threads s else S (threads s)) ->
  colors_ok (l ++ [e]) s'.
Proof.
  intros [Hn Hc] He Ht s' E1 E2. unfold colors_ok.
  assert (Hs : threads_in (since (l ++ [e])) = threads_in (since l) ++ [t]).
  { rewrite since_snoc, He. unfold threads_in in *. rewrite flat_map_app, Ht. reflexivity. }
  rewrite Hs, firsts_N_snoc, E1, E2.
  destruct (thread_color t (colors s)) as [k|] eqn:Ek.
  - apply Hc in Ek. destruct in_dec as [Hi|Hi]; [split; [exact Hn|exact Hc]|].
    destruct Hi. apply firsts_N_In. eapply nth_error_In. exact Ek.
  - destruct in_dec as [Hi|Hi].
    + rewrite <- firsts_N_In in Hi. apply In_nth_error in Hi. destruct Hi as [k Hk]. apply Hc in Hk. congruence.
    + split; [rewrite app_length; cbn [length]; lia|]. intros u k. cbn [thread_color].
      assert (Hnt : ~ In t (firsts_N (threads_in (since l)))) by (rewrite firsts_N_In; exact Hi).
      destruct (N.eqb_spec t u) as [->|Hne].
      * split; [intro E; injection E as <-; rewrite Hn, nth_error_app2, Nat.sub_diag by lia; reflexivity|].
        intro E. destruct (Nat.lt_ge_cases k (length (firsts_N (threads_in (since l))))) as [Hlt|Hge].
        -- rewrite nth_error_app1 in E by exact Hlt. apply nth_error_In in E. tauto.
        -- rewrite nth_error_app2 in E by exact Hge. destruct (k - length (firsts_N (threads_in (since l)))) as [|d] eqn:Ed; [f_equal; lia|]. destruct d; discriminate E.
      * rewrite Hc. destruct (Nat.lt_ge_cases k (length (firsts_N (threads_in (since l))))) as [Hlt|Hge].
        -- rewrite nth_error_app1 by exact Hlt. reflexivity.
        -- rewrite nth_error_app2 by exact Hge. rewrite (proj2 (nth_error_None _ _) Hge).
           destruct (k - length (firsts_N (threads_in (since l)))) as [|d]; cbn; [split; congruence|]. destruct d; split; discriminate.
Qed.

Lemma colors_same l s e s' : colors_ok l s -> is_clear e = false -> threads_in [e] = [] -> colors s' = colors s -> threads s' = threads s -> colors_ok (l ++ [e]) s'.
Proof.
  intros H He Ht E1 E2. unfold colors_ok. rewrite since_snoc, He, E1, E2. unfold threads_in in *. rewrite flat_map_app, Ht, app_nil_r. exact H.
Qed.

Lemma recent_same l s e s' : recent_ok l s -> is_clear e = false -> paths [e] = [] -> recent s' = recent s -> recent_ok (l ++ [e]) s'.
Proof.
  intros H He Ht E1. unfold recent_ok. rewrite since_snoc, He, E1. unfold paths in *. rewrite flat_map_app, Ht, app_nil_r. exact H.
Qed.

Lemma good_step l s e s' : good l s -> apply e s = Ok s' -> good (l ++ [e]) s'.
Proof.
  intros (H1 & H2 & H3 & H4) E. destruct e as [p n| |now p i size t|now p i size]; cbn [apply] in E.
  - injection E as <-. split; [|split; [|split]].
    + eapply recent_same; eauto.
    + eapply colors_same; eauto.
    + unfold totals_ok. rewrite since_snoc. cbn [is_clear]. unfold streamed_sizes, cached_sizes. rewrite !flat_map_app. cbn. rewrite !app_nil_r. exact H3.
    + intro q. rewrite since_snoc. cbn [is_clear]. rewrite size_of_snoc. unfold chunks_of, init_file. cbn [files]. rewrite lookup_cons.
      destruct (list_eq_dec N.eq_dec p q); [apply resize_length|apply H4].
  - injection E as <-. unfold good, recent_ok, colors_ok, totals_ok, sizes_ok. rewrite since_snoc. cbn [is_clear]. apply good_empty.
  - unfold record_streamed in E. destruct (set_chunk (chunks_of p s) i (mkch Streamed t now)) as [c| | |] eqn:Ec; try discriminate.
    cbn in E. injection E as <-. split; [|split; [|split]].
    + eapply (add_recent_step p); eauto.
    + eapply (colors_step t); eauto.
    + unfold totals_ok. rewrite since_snoc. cbn [is_clear total_streamed total_cached]. unfold streamed_sizes, cached_sizes in *. rewrite !flat_map_app. cbn [flat_map]. rewrite !app_nil_r, sum_app.
      destruct H3 as [H3 H3']. rewrite H3, H3'. unfold streamed_sizes, cached_sizes. cbn. split; lia.
    + intro q. rewrite since_snoc. cbn [is_clear]. rewrite size_of_snoc. unfold chunks_of. cbn [files]. rewrite lookup_cons.
      destruct (list_eq_dec N.eq_dec p q) as [<-|]; [rewrite (set_chunk_length _ _ _ _ Ec)|]; apply H4.
  - unfold record_cached in E. destruct (set_chunk (chunks_of p s) i (mkch Cached 0 now)) as [c| | |] eqn:Ec; try discriminate.
    cbn in E. injection E as <-. split; [|split; [|split]].
    + eapply (add_recent_step p); eauto.
    + eapply colors_same; eauto.
    + unfold totals_ok. rewrite since_snoc. cbn [is_clear total_streamed total_cached]. unfold streamed_sizes, cached_sizes in *. rewrite !flat_map_app. cbn [flat_map]. rewrite !app_nil_r, sum_app.
      destruct H3 as [H3 H3']. rewrite H3, H3'. unfold streamed_sizes, cached_sizes. cbn. split; lia.
    + intro q. rewrite since_snoc. cbn [is_clear]. rewrite size_of_snoc. unfold chunks_of. cbn [files]. rewrite lookup_cons.
      destruct (list_eq_dec N.eq_dec p q) as [<-|]; [rewrite (set_chunk_length _ _ _ _ Ec)|]; apply H4.
Qed.

Lemma good_run l s : run l empty = Ok s -> good l s.
Proof.
  revert s. induction l as [|e l IH] using rev_ind; intros s E; [injection E as <-; apply good_empty|].
  rewrite run_snoc in E. destruct (run l empty) as [s1| | |] eqn:E1; try discriminate. eapply good_step; [apply IH; reflexivity|exact E].
Qed.

(** ** Undefined behaviour *)
Lemma run_not_other l s : (exists s', run l s = Ok s') \/ run l s = UB.
Proof.
  revert s. induction l as [|e l IH]; intro s; [left; eexists; reflexivity|]. cbn [run].
  assert (Hs : (exists s', apply e s = Ok s') \/ apply e s = UB).
  { destruct e; cbn [apply]; [left; eexists; reflexivity|left; eexists; reflexivity| |].
    - unfold record_streamed, set_chunk. destruct (Nat.ltb i (length (chunks_of p s))); cbn; [left; eexists|right]; reflexivity.
    - unfold record_cached, set_chunk. destruct (Nat.ltb i (length (chunks_of p s))); cbn; [left; eexists|right]; reflexivity. }
  destruct Hs as [[s' ->]| ->]; cbn; [apply IH|right; reflexivity].
Qed.

Lemma apply_ok_iff l s e : good l s -> (exists s', apply e s = Ok s') <->
  match e with RecStreamed _ p i _ _ | RecCached _ p i _ => i < size_of p (since l) | _ => True end.
Proof.
  intros (_ & _ & _ & H). destruct e; cbn [apply].
  - split; [auto|eexists; reflexivity].
  - split; [auto|eexists; reflexivity].
  - rewrite <- H. unfold record_streamed, set_chunk. destruct (Nat.ltb_spec i (length (chunks_of p s))); cbn; (split; [|intro]; try lia).
    + eexists; reflexivity.
    + intros [s' E]. discriminate.
  - rewrite <- H. unfold record_cached, set_chunk. destruct (Nat.ltb_spec i (length (chunks_of p s))); cbn; (split; [|intro]; try lia).
    + eexists; reflexivity.
    + intros [s' E]. discriminate.
Qed.

Lemma registered_snoc l e : registered (l ++ [e]) <-> registered l /\ match e with RecStreamed _ p i _ _ | RecCached _ p i _ => i < size_of p (since l) | _ => True end.
Proof.
  unfold registered. split.
  - intro H. split; [|apply (H l e []); reflexivity]. intros l1 x l2 E. apply (H l1 x (l2 ++ [e])). rewrite E, <- app_assoc. reflexivity.
  - intros [H He] l1 x l2 E. destruct l2 as [|y l2] using rev_ind.
    + apply app_inj_tail in E. destruct E as [<- <-]. exact He.
    + rewrite app_comm_cons, app_assoc in E. apply app_inj_tail in E. destruct E as [E _]. apply (H l1 x l2 E).
Qed.

Lemma run_ok_iff l : (exists s, run l empty = Ok s) <-> registered l.
Proof.
  induction l as [|e l IH] using rev_ind.
  - split; [intros _ l1 x l2 E; destruct l1; discriminate|eexists; reflexivity].
  - rewrite registered_snoc, <- IH, run_snoc. split.
    + intros [s E]. destruct (run l empty) as [s1| | |] eqn:E1; try discriminate. split; [eauto|].
      apply (apply_ok_iff l s1 e (good_run _ _ E1)). eauto.
    + intros [[s1 E1] He]. rewrite E1. cbn. apply (apply_ok_iff l s1 e (good_run _ _ E1)). exact He.
Qed.

(** ** The chunks of a file *)
Lemma last_said_snoc p i l e : last_said p i (l ++ [e]) =
  match e with
  | RecStreamed now q j _ t => if list_eq_dec N.eq_dec q p then if Nat.eq_dec j i then mkch Streamed t now else last_said p i l else last_said p i l
  | RecCached now q j _ => if list_eq_dec N.eq_dec q p then if Nat.eq_dec j i then mkch Cached 0 now else last_said p i l else last_said p i l
  | _ => last_said p i l
  end.
Proof. unfold last_said. rewrite fold_left_app. reflexivity. Qed.

Lemma last_said_unregistered p i l : size_of p (since l) = 0 -> registered l -> forall n, 0 < n -> one_size p n (since l) -> last_said p i (since l) = mkch NotLoaded 0 0.
Proof.
  revert i. induction l as [|e l IH] using rev_ind; intros i Hz Hr n Hn H1; [reflexivity|].
  apply registered_snoc in Hr. destruct Hr as [Hr He]. rewrite since_snoc in *.
  destruct e as [q m| |now q j size t|now q j size]; cbn [is_clear] in *; try reflexivity;
  rewrite size_of_snoc in Hz; unfold one_size in H1; apply Forall_app in H1; destruct H1 as [H1 H2]; rewrite last_said_snoc.
  - destruct (list_eq_dec N.eq_dec q p) as [->|]; [|apply IH with n; assumption].
    inversion H2 as [|? ? H3]; subst. specialize (H3 eq_refl). lia.
  - destruct (list_eq_dec N.eq_dec q p) as [->|]; [lia|apply IH with n; assumption].
  - destruct (list_eq_dec N.eq_dec q p) as [->|]; [lia|apply IH with n; assumption].
Qed.

Lemma resize_same c n : length c = n -> resize c n = c.
Proof. intros <-. unfold resize. rewrite firstn_all, Nat.sub_diag. apply app_nil_r. Qed.

Lemma size_of_one p n l : one_size p n l -> size_of p l = n \/ size_of p l = 0.
Proof.
  induction l as [|e l IH] using rev_ind; intro H; [right; reflexivity|]. unfold one_size in H. apply Forall_app in H. destruct H as [H1 H2].
  rewrite size_of_snoc. specialize (IH H1). inversion H2 as [|? ? H3]; subst. destruct e; auto.
  destruct (list_eq_dec N.eq_dec p0 p); auto.
Qed.

Lemma nth_repeat_no i n x : nth_error (repeat no_chunk n) i = Some x -> x = no_chunk.
Proof. intro H. apply nth_error_In, repeat_spec in H. exact H. Qed.

Lemma chunks_said p n l s : 0 < n -> run l empty = Ok s -> one_size p n (since l) ->
  forall i x, nth_error (chunks_of p s) i = Some x -> x = last_said p i (since l).
Proof.
  intro Hn. revert s. induction l as [|e l IH] using rev_ind; intros s E H1 i x Hx.
  - injection E as <-. destruct i; discriminate.
  - pose proof (proj1 (run_ok_iff _) (ex_intro _ s E)) as Hr. apply registered_snoc in Hr. destruct Hr as [Hr He].
    rewrite run_snoc in E. destruct (run l empty) as [s1| | |] eqn:E1; try discriminate. cbn in E.
    pose proof (good_run _ _ E1) as (_ & _ & _ & Hsz). specialize (IH s1 eq_refl).
    rewrite since_snoc in *. destruct e as [q m| |now q j size t|now q j size]; cbn [is_clear apply] in *.
    + unfold one_size in H1. apply Forall_app in H1. destruct H1 as [H1 H2]. specialize (IH H1). rewrite last_said_snoc.
      injection E as <-. unfold chunks_of, init_file in Hx. cbn [files] in Hx. rewrite lookup_cons in Hx.
      destruct (list_eq_dec N.eq_dec q p) as [->|]; [|apply IH, Hx].
      inversion H2 as [|? ? H3]; subst. specialize (H3 eq_refl). subst m.
      change (match lookup p (files s1) with Some c => c | None => [] end) with (chunks_of p s1) in Hx.
      destruct (size_of_one _ _ _ H1) as [Hz|Hz]; rewrite <- Hsz in Hz.
      * rewrite resize_same in Hx by exact Hz. apply IH, Hx.
      * apply length_zero_iff_nil in Hz as Hz'. rewrite Hz' in Hx. unfold resize in Hx. rewrite firstn_nil in Hx. cbn [app] in Hx.
        apply nth_repeat_no in Hx. subst x. symmetry. apply (last_said_unregistered p i l) with n; auto. rewrite <- Hsz. exact Hz.
    + injection E as <-. destruct i; discriminate.
    + unfold one_size in H1. apply Forall_app in H1. destruct H1 as [H1 H2]. specialize (IH H1). rewrite last_said_snoc.
      unfold record_streamed in E. destruct (set_chunk (chunks_of q s1) j (mkch Streamed t now)) as [c| | |] eqn:Ec; try discriminate.
      cbn in E. injection E as <-. unfold chunks_of in Hx. cbn [files] in Hx. rewrite lookup_cons in Hx.
      destruct (list_eq_dec N.eq_dec q p) as [->|]; [|apply IH, Hx].
      rewrite (set_chunk_nth _ _ _ _ _ Ec) in Hx. destruct (Nat.eq_dec j i); [congruence|apply IH, Hx].
    + unfold one_size in H1. apply Forall_app in H1. destruct H1 as [H1 H2]. specialize (IH H1). rewrite last_said_snoc.
      unfold record_cached in E. destruct (set_chunk (chunks_of q s1) j (mkch Cached 0 now)) as [c| | |] eqn:Ec; try discriminate.
      cbn in E. injection E as <-. unfold chunks_of in Hx. cbn [files] in Hx. rewrite lookup_cons in Hx.
      destruct (list_eq_dec N.eq_dec q p) as [->|]; [|apply IH, Hx].
      rewrite (set_chunk_nth _ _ _ _ _ Ec) in Hx. destruct (Nat.eq_dec j i); [congruence|apply IH, Hx].
Qed.

(** A chunk has a time if and only if it is loaded. *)
Definition timed (x : chunk) : Prop := c_state x = NotLoaded <-> c_time x = 0%N.
Lemma timed_run l s : clock_set l -> run l empty = Ok s -> forall p, Forall timed (chunks_of p s).
Proof.
  revert s. induction l as [|e l IH] using rev_ind; intros s Hc E p; [injection E as <-; constructor|].
  unfold clock_set in Hc. apply Forall_app in Hc. destruct Hc as [Hc He]. inversion He as [|? ? He' _]; subst.
  rewrite run_snoc in E. destruct (run l empty) as [s1| | |] eqn:E1; try discriminate. cbn in E. specialize (IH s1 Hc eq_refl).
  destruct e as [q m| |now q j size t|now q j size]; cbn [apply] in *.
  - injection E as <-. unfold chunks_of, init_file. cbn [files]. rewrite lookup_cons. destruct (list_eq_dec N.eq_dec q p) as [->|]; [|apply IH].
    apply Forall_app. split.
    + specialize (IH p). unfold chunks_of in IH. rewrite <- (firstn_skipn m) in IH. apply Forall_app in IH. apply IH.
    + apply Forall_forall. intros x Hx. apply repeat_spec in Hx. subst x. split; reflexivity.
  - injection E as <-. constructor.
  - unfold record_streamed in E. destruct (set_chunk (chunks_of q s1) j (mkch Streamed t now)) as [c| | |] eqn:Ec; try discriminate.
    cbn in E. injection E as <-. unfold chunks_of. cbn [files]. rewrite lookup_cons.
    destruct (list_eq_dec N.eq_dec q p) as [->|]; [|apply IH].
    apply Forall_forall. intros x Hx. apply In_nth_error in Hx. destruct Hx as [k Hk]. rewrite (set_chunk_nth _ _ _ _ _ Ec) in Hk.
    destruct (Nat.eq_dec j k); [injection Hk as <-; split; [discriminate|cbn; lia]|].
    apply nth_error_In in Hk. specialize (IH p). rewrite Forall_forall in IH. apply IH, Hk.
  - unfold record_cached in E. destruct (set_chunk (chunks_of q s1) j (mkch Cached 0 now)) as [c| | |] eqn:Ec; try discriminate.
    cbn in E. injection E as <-. unfold chunks_of. cbn [files]. rewrite lookup_cons.
    destruct (list_eq_dec N.eq_dec q p) as [->|]; [|apply IH].
    apply Forall_forall. intros x Hx. apply In_nth_error in Hx. destruct Hx as [k Hk]. rewrite (set_chunk_nth _ _ _ _ _ Ec) in Hk.
    destruct (Nat.eq_dec j k); [injection Hk as <-; split; [discriminate|cbn; lia]|].
    apply nth_error_In in Hk. specialize (IH p). rewrite Forall_forall in IH. apply IH, Hk.
Qed.

(** ** Groups *)
Lemma group_nonempty m w n : 0 < w -> w <= m -> n * m / w < (n + 1) * m / w.
Proof.
  intros Hw Hm. apply Nat.lt_le_trans with (n * m / w + 1); [lia|].
  rewrite <- (Nat.div_add _ 1 w) by lia. apply Nat.div_le_mono; lia.
Qed.
Lemma group_bound m w n : n < w -> (n + 1) * m / w <= m.
Proof. intro H. apply Nat.div_le_upper_bound; [lia|]. apply Nat.mul_le_mono_r. lia. Qed.
Lemma group_mono m w a b : a <= b -> a * m / w <= b * m / w.
Proof. intro H. destruct w; [reflexivity|]. apply Nat.div_le_mono; [lia|]. apply Nat.mul_le_mono_r. exact H. Qed.
Lemma group_exists m w i : 0 < w -> i < m -> exists n, n < w /\ in_group m w n i.
Proof.
  intros Hw Hi.
  assert (H : forall k, k <= w -> i < k * m / w -> exists n, n < k /\ in_group m w n i).
  { induction k as [|k IH]; intros Hk Hlt; [rewrite Nat.mul_0_l, Nat.div_0_l in Hlt by lia; lia|].
    destruct (Nat.lt_ge_cases i (k * m / w)) as [H|H].
    - destruct (IH ltac:(lia) H) as [n [Hn Hg]]. exists n. split; [lia|exact Hg].
    - exists k. split; [lia|]. split; [exact H|]. replace (k + 1) with (S k) by lia. exact Hlt. }
  destruct (H w ltac:(lia)) as [n Hn]; [rewrite Nat.mul_comm, Nat.div_mul by lia; exact Hi|]. exists n. exact Hn.
Qed.
Lemma group_unique m w i a b : in_group m w a i -> in_group m w b i -> a = b.
Proof.
  intros [A1 A2] [B1 B2]. destruct (Nat.lt_trichotomy a b) as [H|[H|H]]; [exfalso| exact H |exfalso].
  - pose proof (group_mono m w (a + 1) b ltac:(lia)). lia.
  - pose proof (group_mono m w (b + 1) a ltac:(lia)). lia.
Qed.

Lemma latest_spec c l i best t : (forall k x, nth_error l k = Some x -> nth_error c (i + k) = Some x) -> best < i ->
  (exists y, nth_error c best = Some y /\ c_time y = t) ->
  exists y, nth_error c (latest l i best t) = Some y /\ (latest l i best t = best \/ i <= latest l i best t < i + length l) /\
    (t <= c_time y)%N /\ forall x, In x l -> (c_time x <= c_time y)%N.
Proof.
  revert i best t. induction l as [|x l IH]; intros i best t Hl Hb [y [Hy Ht]]; cbn [latest length].
  - exists y. split; [exact Hy|]. split; [left; reflexivity|]. split; [lia|]. intros x [].
  - assert (Hx : nth_error c i = Some x) by (rewrite <- (Nat.add_0_r i); apply Hl; reflexivity).
    assert (Hl' : forall k z, nth_error l k = Some z -> nth_error c (S i + k) = Some z).
    { intros k z Hz. rewrite Nat.add_succ_comm. apply Hl. exact Hz. }
    destruct (N.ltb_spec t (c_time x)) as [Hlt|Hge].
    + destruct (IH (S i) i (c_time x) Hl' ltac:(lia)) as [z (Hz & Hr & Hm & Hall)]; [exists x; auto|].
      exists z. split; [exact Hz|]. split; [lia|]. split; [lia|]. intros u [<-|Hu]; [exact Hm|apply Hall, Hu].
    + destruct (IH (S i) best t Hl' ltac:(lia)) as [z (Hz & Hr & Hm & Hall)]; [exists y; auto|].
      exists z. split; [exact Hz|]. split; [lia|]. split; [lia|]. intros u [<-|Hu]; [lia|apply Hall, Hu].
Qed.

Lemma pick_spec c n w : n < w -> w <= length c ->
  exists i x, pick c n w = Ok x /\ nth_error c i = Some x /\ in_group (length c) w n i /\
    forall k y, in_group (length c) w n k -> nth_error c k = Some y -> (c_time y <= c_time x)%N.
Proof.
  intros Hn Hw. pose proof (group_nonempty (length c) w n ltac:(lia) Hw) as Hne. pose proof (group_bound (length c) w n Hn) as Hbd.
  unfold pick, in_group. remember (n * length c / w) as b eqn:Eb. remember ((n + 1) * length c / w) as e eqn:Ee. clear Eb Ee.
  destruct (nth_error c b) as [x|] eqn:Ex; [|apply nth_error_None in Ex; lia].
  rewrite (proj2 (Nat.leb_le e (length c)) Hbd).
  assert (Hsub : forall k z, nth_error (firstn (e - (b + 1)) (skipn (b + 1) c)) k = Some z <-> (k < e - (b + 1) /\ nth_error c (b + 1 + k) = Some z)).
  { intros k z.
    assert (Hsk : nth_error (skipn (b + 1) c) k = nth_error c (b + 1 + k)).
    { rewrite <- (firstn_skipn (b + 1) c) at 2. rewrite nth_error_app2 by (rewrite firstn_length; lia). rewrite firstn_length. f_equal. lia. }
    destruct (Nat.lt_ge_cases k (e - (b + 1))) as [H|H].
    - rewrite <- Hsk. rewrite <- (firstn_skipn (e - (b + 1)) (skipn (b + 1) c)) at 2. rewrite nth_error_app1 by (rewrite firstn_length, skipn_length; lia). tauto.
    - rewrite (proj2 (nth_error_None _ _)) by (rewrite firstn_length; lia). split; [discriminate|lia]. }
  destruct (latest_spec c (firstn (e - (b + 1)) (skipn (b + 1) c)) (b + 1) b (c_time x)) as [y (Hy & Hr & Hm & Hall)].
  { intros k z Hz. apply Hsub in Hz. apply Hz. }
  { lia. }
  { exists x; auto. }
  rewrite Hy. exists (latest (firstn (e - (b + 1)) (skipn (b + 1) c)) (b + 1) b (c_time x)), y.
  split; [reflexivity|]. split; [exact Hy|]. split.
  - destruct Hr as [->|Hr]; [lia|]. rewrite firstn_length in Hr. lia.
  - intros k z [Hk1 Hk2] Hz. destruct (Nat.eq_dec k b) as [->|Hkb]; [rewrite Ex in Hz; injection Hz as <-; exact Hm|].
    apply Hall. apply (nth_error_In _ (k - (b + 1))). apply Hsub. split; [lia|]. replace (b + 1 + (k - (b + 1))) with k by lia. exact Hz.
Qed.

(** ** Lines *)
Lemma collect_ok {A B} (f : A -> outcome B) (P : A -> B -> Prop) l : (forall a, In a l -> exists b, f a = Ok b /\ P a b) -> exists r, collect (map f l) = Ok r /\ Forall2 P l r.
Proof.
  induction l as [|a l IH]; intro H; cbn [map collect]; [exists []; split; [reflexivity|constructor]|].
  destruct (H a (or_introl eq_refl)) as [b [-> Hb]]. destruct IH as [r [-> Hr]]; [intros x Hx; apply H; right; exact Hx|].
  cbn. exists (b :: r). split; [reflexivity|constructor; assumption].
Qed.

Lemma short_name_length p : length (short_name p) <= 33.
Proof.
  unfold short_name. destruct (Nat.ltb_spec kMaxFilenameSize (length (base_name p))) as [H|H].
  - rewrite app_length, firstn_length. cbn [length]. unfold kMaxFilenameSize in *. lia.
  - unfold kMaxFilenameSize in *. lia.
Qed.

Lemma max_bound (f : bytes -> nat) l p : In p l -> f p <= fold_right (fun p m => Nat.max (f p) m) 0 l.
Proof. induction l as [|x l IH]; [intros []|]. cbn [fold_right]. intros [->|H]; [lia|]. specialize (IH H). lia. Qed.
Lemma max_le (f : bytes -> nat) l b : (forall p, f p <= b) -> fold_right (fun p m => Nat.max (f p) m) 0 l <= b.
Proof. intro H. induction l as [|x l IH]; cbn [fold_right]; [lia|]. specialize (H x). lia. Qed.

Lemma padded_name (f : bytes) k : length (firstn (k + 1) (f ++ repeat 32%N (k + 1 - length f))) = k + 1.
Proof. rewrite firstn_length, app_length, repeat_length. lia. Qed.

Lemma Forall2_len' {A B} (P : A -> B -> Prop) l r : Forall2 P l r -> length l = length r.
Proof. induction 1; cbn; congruence. Qed.
Lemma map_repeat' {A B} (f : A -> B) x n : map f (repeat x n) = repeat (f x) n.
Proof. induction n as [|n IH]; [reflexivity|]. cbn [repeat map]. rewrite IH. reflexivity. Qed.

Lemma file_line_spec s width k p : length (short_name p) <= k -> k + 1 < width ->
  let w := Nat.min (length (chunks_of p s)) (width - (k + 1)) in
  exists cells, file_line s width k p = Ok (map Char (short_name p) ++ repeat (Char 32%N) (k + 1 - length (short_name p)) ++ cells ++ repeat (Char 32%N) (width - (k + 1 + w) + 1)) /\
    length cells = w /\
    forall n, n < w -> exists i x, nth_error cells n = Some (show s x) /\ nth_error (chunks_of p s) i = Some x /\ in_group (length (chunks_of p s)) w n i /\
      forall j y, in_group (length (chunks_of p s)) w n j -> nth_error (chunks_of p s) j = Some y -> (c_time y <= c_time x)%N.
Proof.
  intros Hf Hk w. unfold file_line. rewrite padded_name. fold w.
  destruct (collect_ok (fun n => do x <- pick (chunks_of p s) n w; Ok (show s x))
    (fun n b => exists i x, b = show s x /\ nth_error (chunks_of p s) i = Some x /\ in_group (length (chunks_of p s)) w n i /\
      forall j y, in_group (length (chunks_of p s)) w n j -> nth_error (chunks_of p s) j = Some y -> (c_time y <= c_time x)%N) (seq 0 w)) as [cells [Hc HF]].
  { intros n Hn. apply in_seq in Hn. destruct (pick_spec (chunks_of p s) n w) as (i & x & -> & Hi & Hg & Hm); [lia|unfold w; lia|].
    exists (show s x). split; [reflexivity|]. exists i, x. auto. }
  rewrite Hc. exists cells. split.
  - cbn. f_equal. rewrite firstn_all2 by (rewrite app_length, repeat_length; lia). rewrite map_app, <- app_assoc. f_equal. f_equal. rewrite map_repeat'. reflexivity.
  - pose proof (Forall2_len' _ _ _ HF) as Hl. rewrite seq_length in Hl. split; [lia|]. intros n Hn.
    assert (HFn : forall a l r, Forall2 (fun n b => exists i x, b = show s x /\ nth_error (chunks_of p s) i = Some x /\ in_group (length (chunks_of p s)) w n i /\
      forall j y, in_group (length (chunks_of p s)) w n j -> nth_error (chunks_of p s) j = Some y -> (c_time y <= c_time x)%N) (seq a l) r -> forall n, n < l -> exists i x, nth_error r n = Some (show s x) /\ nth_error (chunks_of p s) i = Some x /\ in_group (length (chunks_of p s)) w (a + n) i /\
      forall j y, in_group (length (chunks_of p s)) w (a + n) j -> nth_error (chunks_of p s) j = Some y -> (c_time y <= c_time x)%N).
    { clear. intros a l. revert a. induction l as [|l IH]; intros a r HF n Hn; [lia|]. cbn [seq] in HF. inversion HF as [|? b ? r' Hb Hr]; subst.
      destruct n as [|n].
      - destruct Hb as (i & x & -> & H). exists i, x. rewrite Nat.add_0_r. split; [reflexivity|exact H].
      - destruct (IH (S a) r' Hr n ltac:(lia)) as (i & x & H). exists i, x. rewrite <- Nat.add_succ_comm. exact H. }
    apply (HFn 0 w cells HF n Hn).
Qed.
