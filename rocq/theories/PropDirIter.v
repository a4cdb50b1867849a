(** C70: listing a directory tree. *)
From Verif Require Import Base ListX Str ModelPath PropPath ModelDirIter SpecDirIter ProofDirIter.
Local Open Scope N_scope.
Local Notation str := (list N).

(** The entry object the caller gets for a listed item. *)
Definition reported (i : item) : entry :=
  let '(rel, n, k) := i in {| e_rel := rel; e_name := n; e_type := type_code k |}.

Definition plain_kind (k : kind) : Prop := k = Directory \/ k = Regular \/ k = Fifo \/ k = CharDev.

(** Iterating until NextEntry returns false yields the depth-first listing of the
    tree, in order, each entry with its relative directory; Status() afterwards
    is the error that ended the listing, or OK; whatever addresses opendir
    returns, including those of directories closed before. *)
Theorem C70_lists_tree : forall fs alloc path dirs files recursive t es e l err,
  addresses_ok alloc -> path <> [] -> (forall m, path <> m ++ [92]) ->
  fs path = Opened es e -> on_disk fs path t es e -> good_names t -> only_kinds plain_kind t ->
  listing dirs files recursive [] t = (l, err) ->
  exists k0, forall k, (k0 <= k)%nat -> exists itf,
    drain fs alloc k (snd (open fs alloc path dirs files recursive)) = Ok (map reported l, itf) /\
    fst (open fs alloc path dirs files recursive) = true /\ i_status itf = err.
Proof.
  intros fs alloc path dirs files recursive t es e l err Ha Hp Hb Hf Hd Hg Hk L.
  unfold open. rewrite Hf. cbn [fst snd].
  set (f := {| f_ptr := alloc 0%nat []; f_name := basename path; f_rest := es; f_end := e |}).
  set (it := {| i_path := path; i_ret_dirs := dirs; i_ret_files := files; i_rec := recursive;
     i_status := 0; i_dirs := [f]; i_last := 0; i_rel := []; i_opens := 1 |}).
  assert (A : at_dir it f [] path []).
  { constructor; try reflexivity.
    - constructor; [intros []|constructor].
    - exact Hb.
    - intros m E. destruct m; discriminate. }
  pose proof (traverse fs alloc Ha path t es e Hd it f [] [] l err A eq_refl eq_refl Hg Hk L) as O.
  unfold outcome_of in O.
  assert (exists itf, D fs alloc it (map ent l) itf /\ i_status itf = err) as (itf & [k0 H] & Hs).
  { destruct (N.eqb_spec err 0) as [->|_]; [|exact O].
    destruct O as (it2 & (_ & _ & _ & _ & Sm) & Hd2 & _ & K). exists it2.
    split; [|exact Sm]. rewrite <- (app_nil_r (map ent l)). apply K.
    apply D_halt; [exact Sm|]. unfold step. rewrite Hd2. reflexivity. }
  exists k0. intros k Hk0. exists itf. split; [|split; [reflexivity|exact Hs]].
  exact (drain_le fs alloc k0 k it _ Hk0 H).
Qed.

(** If the directory itself cannot be opened, Open returns false, Status() is
    the error and no entry is returned. *)
Theorem C70_open_fails : forall fs alloc path dirs files recursive e, e <> 0 ->
  fs path = OpenFailed e ->
  fst (open fs alloc path dirs files recursive) = false /\
  i_status (snd (open fs alloc path dirs files recursive)) = e /\
  i_valid (snd (open fs alloc path dirs files recursive)) = false /\
  forall k, (0 < k)%nat -> drain fs alloc k (snd (open fs alloc path dirs files recursive)) =
    Ok ([], snd (open fs alloc path dirs files recursive)).
Proof.
  intros fs alloc path dirs files recursive e He Hf. unfold open. rewrite Hf. cbn [fst snd].
  split; [reflexivity|]. split; [reflexivity|].
  assert (E : (e =? 0) = false) by (apply N.eqb_neq; exact He).
  split; [unfold i_valid; cbn [i_status]; rewrite E; reflexivity|].
  intros [|k] Hk; [lia|]. cbn [drain]. unfold next_entry. cbn [i_status]. rewrite E. reflexivity.
Qed.

(** Once NextEntry has returned false it keeps doing so, and Status() no longer
    changes. *)
Theorem C70_stays_ended : forall fs alloc k it it',
  (forall p e, fs p = OpenFailed e -> e <> 0) -> next_entry fs alloc k it = Ok (None, it') ->
  forall k', (0 < k')%nat -> next_entry fs alloc k' it' = Ok (None, it').
Proof.
  intros fs alloc k it it' Hfs H k' Hk'.
  assert (X : i_status it' <> 0 \/ i_dirs it' = []).
  { unfold next_entry in H. destruct (N.eqb_spec (i_status it) 0) as [S0|S0].
    2: { injection H as <-. auto. }
    revert it S0 H. induction k as [|k IH]; intros it S0 H; [discriminate|].
    cbn [loop] in H. destruct (step fs alloc it) as [i2|e i2|i2] eqn:E; [|discriminate|].
    - apply (IH i2); auto. revert E. clear - S0. unfold step.
      destruct (i_dirs it) as [|f b]; [discriminate|].
      destruct (f_rest f) as [|[n ty] r].
      + destruct (f_end f =? 0); [|discriminate]. intros E; injection E as <-. exact S0.
      + destruct (negb (N.land ty DT_DIR =? 0)).
        * destruct (seqb n dot || seqb n dotdot); [intros E; injection E as <-; exact S0|].
          destruct (i_rec it).
          -- destruct (fs _); [|destruct (e =? EACCES); [|discriminate]];
             (destruct (i_ret_dirs it); [discriminate|intros E; injection E as <-; exact S0]).
          -- destruct (i_ret_dirs it); [discriminate|intros E; injection E as <-; exact S0].
        * destruct (negb (N.land ty DT_REG =? 0)); [destruct (i_ret_files it); [discriminate|]|];
            intros E; injection E as <-; exact S0.
    - injection H as <-. destruct (N.eq_dec (i_status i2) 0) as [Z|Z]; auto. right.
      revert E Z. clear - Hfs. unfold step.
      destruct (i_dirs it) as [|f b] eqn:Ed; [intros E _; injection E as <-; exact Ed|].
      destruct (f_rest f) as [|[n ty] r].
      + destruct (N.eqb_spec (f_end f) 0); [discriminate|]. intros E; injection E as <-.
        cbn [set_status i_status]. congruence.
      + destruct (negb (N.land ty DT_DIR =? 0)).
        * destruct (seqb n dot || seqb n dotdot); [discriminate|].
          destruct (i_rec it).
          -- destruct (fs (join (join (i_path it) _) n)) as [es2 e2|e2] eqn:F; [destruct (i_ret_dirs it); discriminate|].
             destruct (N.eqb_spec e2 EACCES); [destruct (i_ret_dirs it); discriminate|].
             intros E; injection E as <-. cbn [set_status i_status]. intros Z. elim (Hfs _ _ F Z).
          -- destruct (i_ret_dirs it); discriminate.
        * destruct (negb (N.land ty DT_REG =? 0)); [destruct (i_ret_files it)|]; discriminate. }
  unfold next_entry. destruct (N.eqb_spec (i_status it') 0) as [Z|Z]; [|reflexivity].
  destruct X as [X|X]; [contradiction|]. destruct k' as [|k']; [lia|].
  cbn [loop]. unfold step. rewrite X. reflexivity.
Qed.

(** What the listing of a tree without errors contains: with recursion, exactly
    the entries of the tree of the kinds asked for, each once. *)
Lemma listing_ok dirs files rec t : readable t -> forall rel, snd (listing dirs files rec rel t) = 0.
Proof.
  induction t as [e|n k s r IHs IHr] using tree_ind2; intros H rel; cbn [readable] in H.
  - exact H.
  - destruct H as [Hs Hr].
    destruct k; cbn [listing]; try (apply IHr; exact Hr).
    + specialize (Hs eq_refl). destruct (listing dirs files rec rel r) as [lr er] eqn:Er.
      assert (er = 0) by (pose proof (IHr Hr rel) as X; rewrite Er in X; exact X). subst er.
      destruct rec; [|reflexivity].
      destruct s as [| |t']; try contradiction.
      pose proof (IHs t' eq_refl Hs (child rel n)) as X.
      destruct (listing dirs files true (child rel n) t') as [lt et]. cbn [snd] in X. subst et.
      reflexivity.
    + pose proof (IHr Hr rel) as X. destruct (listing dirs files rec rel r). exact X.
Qed.

Lemma listing_in dirs files t : readable t -> forall rel i,
  In i (fst (listing dirs files true rel t)) <-> in_tree rel t i /\ wanted dirs files (snd i).
Proof.
  induction t as [e|n k s r IHs IHr] using tree_ind2; intros H rel i.
  - cbn. split; [intros []|intros [X _]; inversion X].
  - destruct H as [Hs Hr].
    assert (Other : k <> Directory -> k <> Regular ->
      (In i (fst (listing dirs files true rel r)) <-> in_tree rel (Entry n k s r) i /\ wanted dirs files (snd i))).
    { intros Kd Kr. rewrite IHr by exact Hr. split.
      - intros [A B]. split; [apply in_rest; exact A|exact B].
      - intros [A B]. split; [|exact B]. inversion A; subst; auto; try congruence.
        cbn [snd] in B. destruct B as [[? _]|[? _]]; congruence. }
    destruct k; cbn [listing]; try (apply Other; discriminate); clear Other.
    + specialize (Hs eq_refl). destruct s as [| |t']; try contradiction.
      pose proof (listing_ok dirs files true t' Hs (child rel n)) as E0.
      pose proof (IHs t' eq_refl Hs (child rel n) i) as It. pose proof (IHr Hr rel i) as Ir.
      destruct (listing dirs files true (child rel n) t') as [lt et]. cbn [snd fst] in *. subst et.
      destruct (listing dirs files true rel r) as [lr er]. cbn [N.eqb fst] in *.
      rewrite !in_app_iff, It, Ir. split.
      * intros [A|[[A B]|[A B]]].
        -- destruct dirs; [|destruct A]. destruct A as [<-|[]]. split; [constructor|left; auto].
        -- split; [apply in_below; exact A|exact B].
        -- split; [apply in_rest; exact A|exact B].
      * intros [A B]. inversion A; subst; auto.
        left. cbn [snd] in B. destruct B as [[_ ->]|[? _]]; [left; reflexivity|discriminate].
    + pose proof (IHr Hr rel i) as Ir. destruct (listing dirs files true rel r) as [lr er].
      cbn [fst] in *. rewrite in_app_iff, Ir. split.
      * intros [A|[A B]].
        -- destruct files; [|destruct A]. destruct A as [<-|[]]. split; [constructor|right; auto].
        -- split; [apply in_rest; exact A|exact B].
      * intros [A B]. inversion A; subst; auto.
        left. cbn [snd] in B. destruct B as [[? _]|[_ ->]]; [discriminate|left; reflexivity].
Qed.

Lemma nb_child rel n : good_name n -> nb rel -> nb (child rel n).
Proof.
  intros (N0 & _ & _ & _ & Nb) Hr. rewrite child_join by auto. apply nb_join; auto.
Qed.

(** [r'] is [rel] or lies below the entry [n] of [rel]. *)
Definition below (rel n r' : str) : Prop := exists s, r' = child rel n ++ s /\ (s = [] \/ exists u, s = 47 :: u).

Definition open_end (x : str) : Prop := forall m, x <> m ++ [47].

Lemma child_shape rel n : open_end rel -> child rel n = match rel with [] => n | _ => rel ++ 47 :: n end.
Proof.
  intros H. destruct (snoc_cases rel) as [->|(m & b & ->)]; [reflexivity|].
  unfold child. rewrite rev_app_distr. cbn [rev app].
  destruct (N.eq_dec b 47) as [->|Hb]; [elim (H m eq_refl)|].
  assert (forall (A : Type) (x y : A), match m ++ [b] with [] => x | _ => y end = y) as ->
    by (intros; destruct m; reflexivity).
  destruct b as [|q]; [reflexivity|].
  repeat (destruct q as [q|q|]; try reflexivity; try congruence).
Qed.

Lemma open_child rel n : open_end rel -> n <> [] -> ~ In 47 n -> open_end (child rel n).
Proof.
  intros H N0 Ns m. rewrite child_shape by exact H.
  destruct (snoc_cases n) as [?|(n' & b & ->)]; [congruence|].
  intros E. assert (X : exists q, q ++ [b] = m ++ [47]).
  { destruct rel; [exists n'; exact E|]. exists ((n :: rel) ++ 47 :: n').
    rewrite <- app_assoc. exact E. }
  destruct X as [q X]. apply app_inj_tail in X as [_ ->]. apply Ns, in_or_app. right. left. reflexivity.
Qed.

Lemma in_tree_where t : good_names t -> forall rel r' n' k', open_end rel -> in_tree rel t (r', n', k') ->
  (r' = rel /\ In n' (names t)) \/ exists n, In n (names t) /\ below rel n r'.
Proof.
  induction t as [e|n k s r IHs IHr] using tree_ind2; intros G rel r' n' k' Ho H; [inversion H|].
  destruct G as (Gn & Gs & Gr). inversion H; subst.
  - left. split; [reflexivity|left; reflexivity].
  - right. exists n. split; [left; reflexivity|].
    destruct Gn as (N0 & N1 & N2 & Ns & Nb).
    pose proof (open_child rel n Ho N0 Ns) as Ho2.
    match goal with X : in_tree (child rel n) ?t0 _ |- _ => pose proof (IHs t0 eq_refl Gs (child rel n) r' n' k' Ho2 X) as Y end.
    destruct Y as [[-> _]|(m & _ & u & -> & Hu)].
    + exists []. rewrite app_nil_r. auto.
    + rewrite (child_shape (child rel n) m) by exact Ho2.
      assert (X : child rel n <> []).
      { rewrite child_shape by exact Ho. destruct rel; [exact N0|discriminate]. }
      destruct (child rel n) eqn:E; [congruence|]. rewrite <- E in *. 
      exists (47 :: m ++ u). split; [|eauto]. rewrite <- app_assoc. reflexivity.
  - match goal with X : in_tree rel r _ |- _ => pose proof (IHr Gr rel r' n' k' Ho X) as Y end.
    destruct Y as [[-> I]|(m & I & B)].
    + left. split; [reflexivity|right; exact I].
    + right. exists m. split; [right; exact I|exact B].
Qed.

Lemma name_unique n m s u : ~ In 47 n -> ~ In 47 m ->
  (s = [] \/ exists v, s = 47 :: v) -> (u = [] \/ exists v, u = 47 :: v) ->
  n ++ s = m ++ u -> n = m.
Proof.
  revert m. induction n as [|c n IH]; intros m Hn Hm Hs Hu E.
  - destruct m as [|d m]; [reflexivity|]. exfalso. cbn in E.
    destruct Hs as [->|[v ->]]; [discriminate|]. injection E as E _. apply Hm. left. congruence.
  - destruct m as [|d m].
    + exfalso. cbn in E. destruct Hu as [->|[v ->]]; [discriminate|]. injection E as E _.
      apply Hn. left. congruence.
    + injection E as -> E. f_equal. apply IH; auto; intros X; [apply Hn|apply Hm]; right; exact X.
Qed.

Lemma below_unique rel n m r' : open_end rel -> ~ In 47 n -> ~ In 47 m ->
  below rel n r' -> below rel m r' -> n = m.
Proof.
  intros Ho Hn Hm (s & E1 & Hs) (u & E2 & Hu). rewrite E1 in E2.
  rewrite !child_shape in E2 by exact Ho. destruct rel as [|c rel].
  - exact (name_unique n m s u Hn Hm Hs Hu E2).
  - rewrite <- !app_assoc in E2. apply app_inv_head in E2. cbn [app] in E2. injection E2 as E2.
    exact (name_unique n m s u Hn Hm Hs Hu E2).
Qed.

Lemma below_not_self rel n : open_end rel -> n <> [] -> ~ below rel n rel.
Proof.
  intros Ho N0 (s & E & _). rewrite child_shape in E by exact Ho.
  apply (f_equal (@length N)) in E. destruct rel as [|c rel].
  - rewrite app_length in E. destruct n; [congruence|]. cbn in E. lia.
  - rewrite !app_length in E. cbn [length] in E. lia.
Qed.

Lemma names_good t n : good_names t -> In n (names t) -> good_name n.
Proof.
  induction t as [e|m k s r IHs IHr] using tree_ind2; intros G I; [destruct I|]. destruct G as (Gn & _ & Gr).
  destruct I as [<-|I]; [exact Gn|exact (IHr Gr I)].
Qed.

Lemma listing_nodup dirs files t : readable t -> good_names t -> distinct_names t -> forall rel,
  open_end rel -> NoDup (fst (listing dirs files true rel t)).
Proof.
  induction t as [e|n k s r IHs IHr] using tree_ind2; intros H G Dn rel Ho; [constructor|].
  destruct H as [Hs Hr]. destruct G as (Gn & Gs & Gr). destruct Dn as (Dn & Ds & Dr).
  assert (Fresh : forall k, ~ In (rel, n, k) (fst (listing dirs files true rel r))).
  { intros k0 I. apply listing_in in I as [I _]; [|exact Hr].
    apply in_tree_where in I; auto. destruct I as [[_ I]|(m & I & B)]; [contradiction|].
    pose proof (names_good r m Gr I) as (M0 & _). exact (below_not_self rel m Ho M0 B). }
  destruct k; cbn [listing]; try (apply IHr; auto).
  - specialize (Hs eq_refl). destruct s as [| |t']; try contradiction.
    pose proof (listing_ok dirs files true t' Hs (child rel n)) as E0.
    destruct Gn as (N0 & N1 & N2 & Ns & Nb).
    pose proof (open_child rel n Ho N0 Ns) as Ho2.
    pose proof (IHs t' eq_refl Hs Gs Ds (child rel n) Ho2) as Nt. pose proof (IHr Hr Gr Dr rel Ho) as Nr.
    pose proof (fun i => listing_in dirs files t' Hs (child rel n) i) as It.
    pose proof (fun i => listing_in dirs files r Hr rel i) as Ir.
    specialize (Fresh Directory).
    destruct (listing dirs files true (child rel n) t') as [lt et]. cbn [snd fst] in *. subst et.
    destruct (listing dirs files true rel r) as [lr er]. cbn [N.eqb fst] in *.
    assert (Wt : forall r1 n1 k1, In (r1, n1, k1) lt -> below rel n r1).
    { intros r1 n1 k1 I. apply It in I as [I _]. apply in_tree_where in I; auto.
      destruct I as [[-> _]|(m & Im & u & -> & Hu)].
      - exists []. rewrite app_nil_r. auto.
      - rewrite (child_shape (child rel n) m) by exact Ho2.
        assert (X : child rel n <> []).
        { rewrite child_shape by exact Ho. destruct rel; [exact N0|discriminate]. }
        destruct (child rel n) eqn:E; [congruence|]. rewrite <- E in *.
        exists (47 :: m ++ u). split; [|eauto]. rewrite <- app_assoc. reflexivity. }
    assert (Dis : forall i, In i lt -> ~ In i lr).
    { intros [[r1 n1] k1] I J. apply Wt in I. apply Ir in J as [J _]. apply in_tree_where in J; auto.
      destruct J as [[-> _]|(m & Im & B)].
      - exact (below_not_self rel n Ho N0 I).
      - pose proof (names_good r m Gr Im) as (_ & _ & _ & Ms & _).
        pose proof (below_unique rel n m r1 Ho Ns Ms I B). congruence. }
    assert (NoDup (lt ++ lr)).
    { clear - Nt Nr Dis. induction lt as [|x lt IHl]; [exact Nr|]. cbn [app].
      inversion Nt; subst. constructor.
      - rewrite in_app_iff. intros [I|I]; [contradiction|]. exact (Dis x (or_introl eq_refl) I).
      - apply IHl; auto. intros i I. apply Dis. right. exact I. }
    destruct dirs; [|exact H]. cbn [app]. constructor; [|exact H].
    rewrite in_app_iff. intros [I|I]; [|contradiction].
    exact (below_not_self rel n Ho N0 (Wt _ _ _ I)).
  - pose proof (IHr Hr Gr Dr rel Ho) as Nr. specialize (Fresh Regular).
    destruct (listing dirs files true rel r) as [lr er]. cbn [fst] in *.
    destruct files; [|exact Nr]. cbn [app]. constructor; auto.
Qed.

Theorem C70_listing_complete : forall dirs files t, readable t -> good_names t -> distinct_names t ->
  exists l, listing dirs files true [] t = (l, 0) /\ NoDup l /\
    forall i, In i l <-> in_tree [] t i /\ wanted dirs files (snd i).
Proof.
  intros dirs files t H G Dn. exists (fst (listing dirs files true [] t)).
  split; [|split].
  - rewrite <- (listing_ok dirs files true t H []). destruct (listing _ _ _ _ _). reflexivity.
  - apply listing_nodup; auto. intros m E. destruct m; discriminate.
  - intros i. apply listing_in, H.
Qed.

(** Without recursion: exactly the direct entries of those kinds. *)
Theorem C70_listing_flat : forall dirs files t, exists l, listing dirs files false [] t = (l, snd (listing dirs files false [] t)) /\
  forall rel n k, In (rel, n, k) l <-> rel = [] /\ direct t n k /\ wanted dirs files k.
Proof.
  intros dirs files t. exists (fst (listing dirs files false [] t)).
  split; [destruct (listing _ _ _ _ _); reflexivity|].
  induction t as [e|m j s r IHs IHr] using tree_ind2; intros rel n k.
  - cbn. split; [intros []|intros (_ & X & _); inversion X].
  - assert (Other : j <> Directory -> j <> Regular ->
      (In (rel, n, k) (fst (listing dirs files false [] r)) <->
       rel = [] /\ direct (Entry m j s r) n k /\ wanted dirs files k)).
    { intros Kd Kr. rewrite IHr. split.
      - intros (A & B & C). split; [exact A|]. split; [apply direct_rest; exact B|exact C].
      - intros (A & B & C). split; [exact A|]. split; [|exact C].
        inversion B; subst; auto. destruct C as [[? _]|[? _]]; congruence. }
    destruct j; cbn [listing]; try (apply Other; discriminate); clear Other.
    + pose proof (IHr rel n k) as Ir. destruct (listing dirs files false [] r) as [lr er].
      cbn [fst app] in *. rewrite in_app_iff, Ir. split.
      * intros [A|(A & B & C)].
        -- destruct dirs; [|destruct A]. destruct A as [A|[]]. injection A as <- <- <-.
           split; [reflexivity|]. split; [constructor|left; auto].
        -- split; [exact A|]. split; [apply direct_rest; exact B|exact C].
      * intros (A & B & C). inversion B; subst; auto.
        left. destruct C as [[_ ->]|[? _]]; [left; reflexivity|discriminate].
    + pose proof (IHr rel n k) as Ir. destruct (listing dirs files false [] r) as [lr er].
      cbn [fst app] in *. rewrite in_app_iff, Ir. split.
      * intros [A|(A & B & C)].
        -- destruct files; [|destruct A]. destruct A as [A|[]]. injection A as <- <- <-.
           split; [reflexivity|]. split; [constructor|right; auto].
        -- split; [exact A|]. split; [apply direct_rest; exact B|exact C].
      * intros (A & B & C). inversion B; subst; auto.
        left. destruct C as [[? _]|[_ ->]]; [discriminate|left; reflexivity].
Qed.

(** The accessors of a reported entry: exactly one of IsDir and IsRegularFile,
    as it should be, and the path relative to the start. *)
Theorem C70_entry_accessors : forall rel n k, k = Directory \/ k = Regular ->
  good_name n -> (forall m, rel <> m ++ [92]) ->
  let e := reported (rel, n, k) in
  e_valid e = true /\ (e_is_dir e = true <-> k = Directory) /\ (e_is_regular e = true <-> k = Regular) /\
  e_rel_path_name e = child rel n.
Proof.
  intros rel n k Hk Hn Hr. cbv zeta. unfold e_rel_path_name. cbn [reported e_rel e_name].
  rewrite child_join by (try exact Hr; apply Hn).
  destruct Hk as [-> | ->]; unfold e_valid, e_is_dir, e_is_regular; cbn [reported e_type type_code];
    (split; [reflexivity|split; [split; (reflexivity || discriminate)|split; [split; (reflexivity || discriminate)|reflexivity]]]).
Qed.

(** Refuted: every entry kind is treated as what it is. The type numbers are
    tested as if they were bit masks. *)
Definition ex_alloc (n : nat) (open : list N) : N := 1 + fold_right N.add 0 open.

Lemma ex_alloc_ok : addresses_ok ex_alloc.
Proof.
  intros n open. unfold ex_alloc. split; [lia|]. intros I.
  assert (G : forall x l, In x l -> x <= fold_right N.add 0 l).
  { intros x l. induction l as [|y l IH]; intros J; [destruct J|]. cbn [fold_right].
    destruct J as [->|J]; [lia|]. apply IH in J. lia. }
  apply G in I. lia.
Qed.

(** A regular file says it is a symlink. *)
Theorem C70_symlink_flag_refuted :
  e_is_symlink (reported ([], [102], Regular)) = true.
Proof. reflexivity. Qed.

(** "r" with a symlink "l": listed as a regular file. *)
Theorem C70_symlink_refuted : exists fs t es,
  fs [114] = Opened es 0 /\ on_disk fs [114] t es 0 /\ good_names t /\
  listing false true true [] t = ([], 0) /\
  exists e itf, drain fs ex_alloc 9 (snd (open fs ex_alloc [114] false true true)) = Ok ([e], itf) /\
    e_is_regular e = true /\ e_name e = [108] /\ direct t [108] Symlink.
Proof.
  exists (fun p => if seqb p [114] then Opened [([108], 10)] 0 else OpenFailed 20),
    (Entry [108] Symlink (Broken 20) (End 0)), [([108], 10)].
  split; [reflexivity|]. split.
  { apply (disk_entry _ [114] [108] Symlink); [|constructor]. apply sub_broken; [lia|lia|reflexivity]. }
  split. { cbn. split; [|auto]. unfold good_name. split; [discriminate|]. split; [discriminate|]. split; [discriminate|].
    split; [intros [?|[]]; discriminate|]. intros [|a [|b m]]; discriminate. }
  split; [reflexivity|]. eexists _, _. split; [vm_compute; reflexivity|].
  split; [reflexivity|]. split; [reflexivity|]. constructor.
Qed.

(** "r" with a socket "s" and after it a file "f": a recursive search ends with
    ENOTDIR (20) and does not find the file. *)
Theorem C70_socket_refuted : exists fs t es,
  fs [114] = Opened es 0 /\ on_disk fs [114] t es 0 /\ good_names t /\
  listing false true true [] t = ([([], [102], Regular)], 0) /\
  exists itf, drain fs ex_alloc 9 (snd (open fs ex_alloc [114] false true true)) = Ok ([], itf) /\
    i_status itf = 20.
Proof.
  exists (fun p => if seqb p [114] then Opened [([115], 12); ([102], 8)] 0 else OpenFailed 20),
    (Entry [115] Socket (Broken 20) (Entry [102] Regular (Broken 20) (End 0))), [([115], 12); ([102], 8)].
  split; [reflexivity|]. split.
  { apply (disk_entry _ [114] [115] Socket); [apply sub_broken; [lia|lia|reflexivity]|].
    apply (disk_entry _ [114] [102] Regular); [apply sub_broken; [lia|lia|reflexivity]|]. constructor. }
  split. { assert (G : forall c, c <> 46 -> c <> 47 -> c <> 92 -> good_name [c]).
    { intros c A B C. unfold good_name. split; [discriminate|]. split; [congruence|]. split; [discriminate|].
      split; [intros [?|[]]; congruence|]. intros [|a [|b m]] E; cbn in E; congruence. }
    cbn. split; [apply G; discriminate|]. split; [auto|]. split; [apply G; discriminate|auto]. }
  split; [reflexivity|]. eexists. split; [vm_compute; reflexivity|reflexivity].
Qed.

(** On a file system that does not report types nothing is found, and the
    status is OK. *)
Theorem C70_untyped_skipped : forall fs alloc path dirs files recursive es,
  fs path = Opened es 0 -> Forall (fun d => snd d = 0) es ->
  exists k0, forall k, (k0 <= k)%nat -> exists itf,
    drain fs alloc k (snd (open fs alloc path dirs files recursive)) = Ok ([], itf) /\ i_status itf = 0.
Proof.
  intros fs alloc path dirs files recursive es Hf Ht. unfold open. rewrite Hf. cbn [snd].
  assert (X : forall last rel, exists itf, D fs alloc
    {| i_path := path; i_ret_dirs := dirs; i_ret_files := files; i_rec := recursive; i_status := 0;
       i_dirs := [{| f_ptr := alloc 0%nat []; f_name := basename path; f_rest := es; f_end := 0 |}];
       i_last := last; i_rel := rel; i_opens := 1 |} [] itf /\ i_status itf = 0).
  { clear Hf. induction Ht as [|[n ty] es E _ IH]; intros last rel.
    - eexists. split; [eapply D_go; [reflexivity| |reflexivity|]; [reflexivity|]|].
      + apply D_halt; reflexivity.
      + reflexivity.
    - cbn [snd] in E. subst ty.
      destruct (IH (alloc 0%nat []) (if last =? alloc 0%nat [] then rel else [])) as (itf & H & Hs).
      exists itf. split; [|exact Hs]. eapply D_go; [reflexivity| |reflexivity|exact H]. reflexivity. }
  destruct (X 0 []) as (itf & [k0 H] & Hs). exists k0. intros k Hk. exists itf. split; [|exact Hs].
  exact (drain_le _ _ k0 k _ _ Hk H).
Qed.

(** Refuted: the relative paths are right for every directory name. A directory
    named "d\" (legal on Linux): its file "f" is reported as "d\f". *)
Theorem C70_backslash_refuted : exists fs t es,
  fs [114] = Opened es 0 /\ on_disk fs [114] t es 0 /\ readable t /\
  in_tree [] t ([100; 92], [102], Regular) /\
  exists e itf, drain fs ex_alloc 9 (snd (open fs ex_alloc [114] false true true)) = Ok ([e], itf) /\
    e_rel_path_name e = [100; 92; 102] /\ child [100; 92] [102] = [100; 92; 47; 102].
Proof.
  exists (fun p => if seqb p [114] then Opened [([100; 92], 4)] 0
                   else if seqb p [114; 47; 100; 92] then Opened [([102], 8)] 0 else OpenFailed 20),
    (Entry [100; 92] Directory (Contents (Entry [102] Regular (Broken 20) (End 0))) (End 0)), [([100; 92], 4)].
  split; [reflexivity|]. split.
  { apply (disk_entry _ [114] [100; 92] Directory); [|constructor].
    apply sub_contents with (es := [([102], 8)]) (e := 0); [reflexivity|].
    apply (disk_entry _ _ [102] Regular); [apply sub_broken; [lia|lia|reflexivity]|]. constructor. }
  split. { cbn. split; [|reflexivity]. intros _. split; [discriminate|reflexivity]. }
  split. { apply in_below. constructor. }
  eexists _, _. split; [vm_compute; reflexivity|]. split; reflexivity.
Qed.

(** A case for C70_lists_tree: "r" holds ".", "..", a directory "d" with a file
    "f", an unreadable directory "x" and a file "g". *)
Definition ex_fs (p : str) : opened :=
  if seqb p [114] then Opened [([46], 4); ([100], 4); ([46; 46], 4); ([120], 4); ([103], 8)] 0
  else if seqb p [114; 47; 100] then Opened [([102], 8)] 0
  else if seqb p [114; 47; 120] then OpenFailed 13 else OpenFailed 20.
Definition ex_tree : tree :=
  Entry [100] Directory (Contents (Entry [102] Regular (Broken 20) (End 0)))
    (Entry [120] Directory Denied (Entry [103] Regular (Broken 20) (End 0))).
Example C70_example :
  on_disk ex_fs [114] ex_tree [([46], 4); ([100], 4); ([46; 46], 4); ([120], 4); ([103], 8)] 0 /\
  good_names ex_tree /\ only_kinds plain_kind ex_tree /\ distinct_names ex_tree /\
  listing true true true [] ex_tree =
    ([([], [100], Directory); ([100], [102], Regular); ([], [120], Directory); ([], [103], Regular)], 0) /\
  readable (Entry [100] Directory (Contents (Entry [102] Regular (Broken 20) (End 0))) (End 0)).
Proof.
  assert (G : forall c, c <> 46 -> c <> 47 -> c <> 92 -> good_name [c]).
  { intros c A B C. unfold good_name. split; [discriminate|]. split; [congruence|]. split; [discriminate|].
    split; [intros [?|[]]; congruence|]. intros [|a [|b m]] E; cbn in E; congruence. }
  split.
  { apply (disk_dot _ _ _ _ _ [46]); [auto|]. apply (disk_entry _ [114] [100] Directory).
    { apply sub_contents with (es := [([102], 8)]) (e := 0); [reflexivity|].
      apply (disk_entry _ _ [102] Regular); [apply sub_broken; [lia|lia|reflexivity]|constructor]. }
    apply (disk_dot _ _ _ _ _ [46; 46]); [auto|]. apply (disk_entry _ [114] [120] Directory).
    { apply sub_denied. reflexivity. }
    apply (disk_entry _ [114] [103] Regular); [apply sub_broken; [lia|lia|reflexivity]|constructor]. }
  split. { cbn. repeat (split; try (apply G; discriminate)); auto. }
  split. { cbn. unfold plain_kind. intuition auto. }
  split. { cbn. intuition discriminate. }
  split; [reflexivity|].
  cbn. split; [|reflexivity]. intros _. split; [discriminate|reflexivity].
Qed.
