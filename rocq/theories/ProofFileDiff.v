From Verif Require Import Base ListX Str ModelFileDiff SpecFileDiff.
Local Open Scope N_scope.

Section Keyed.
Context {A : Type} (key : A -> bytes).
Definition KLe (a b : A) := sle (key a) (key b).
Definition KLt (a b : A) := slt (key a) (key b).
Definition keqb (a b : A) := seqb (key a) (key b).

Lemma keqb_spec a b : reflect (key a = key b) (keqb a b).
Proof. apply seqb_spec. Qed.

Lemma unique_from_spec l : forall x, StronglySorted KLe (x :: l) ->
  StronglySorted KLt (x :: unique_from keqb x l) /\
  (forall y, In y (unique_from keqb x l) -> In y l) /\
  (forall y, In y l -> exists z, In z (x :: unique_from keqb x l) /\ key z = key y).
Proof.
  induction l as [|a l IH]; intros x S; cbn.
  - split; [repeat constructor|]. split; [tauto|]. intros y [].
  - inversion S as [|? ? S' F]; subst. inversion F as [|? ? Fa Fl]; subst. inversion S' as [|? ? S'' Fa']; subst.
    destruct (keqb_spec x a) as [E|E].
    + destruct (IH x) as (I1 & I2 & I3). { constructor; auto. }
      split; auto. split; [intros; right; auto|].
      intros y [<-|Hy]; [exists x; split; [now left|auto]|]. auto.
    + destruct (IH a S') as (I1 & I2 & I3).
      assert (xa : KLt x a). { unfold KLe in Fa. apply sle_alt in Fa. destruct Fa; [assumption|contradiction]. }
      split.
      * constructor; [assumption|]. constructor; [assumption|].
        inversion I1 as [|? ? J1 J2]; subst. eapply Forall_impl; [|exact J2]. intros b Hb. unfold KLt in *. eapply slt_trans; eauto.
      * split.
        -- intros y [<-|Hy]; [now left|right; auto].
        -- intros y [<-|Hy]; [exists a; split; [right; now left|auto]|].
           destruct (I3 y Hy) as (z & Hz & Ez). exists z. split; [right; exact Hz|exact Ez].
Qed.

Lemma StronglySorted_lt_NoDup l : StronglySorted KLt l -> NoDup (map key l).
Proof.
  induction 1 as [|a l S IH F]; cbn; constructor; auto.
  intros I. apply in_map_iff in I. destruct I as (b & E & I). rewrite Forall_forall in F. specialize (F b I).
  unfold KLt in F. rewrite E in F. now apply slt_irrefl in F.
Qed.

Lemma unique_spec l : StronglySorted KLe l ->
  StronglySorted KLt (unique keqb l) /\ one_per_path key l (unique keqb l).
Proof.
  intros S. destruct l as [|x l]; cbn.
  - split; [constructor|]. split; [constructor|]. split; [tauto|intros x []].
  - destruct (unique_from_spec l x S) as (A1 & A2 & A3). split; [assumption|]. split; [now apply StronglySorted_lt_NoDup|].
    split.
    + intros y [<-|I]; [now left|right; auto].
    + intros y [<-|I]; [exists x; split; [now left|reflexivity]|]. now apply A3.
Qed.

Lemma one_per_path_perm l l' reps : Permutation l l' -> one_per_path key l' reps -> one_per_path key l reps.
Proof.
  intros P (A1 & A2 & A3). split; [assumption|]. split.
  - intros x I. eapply Permutation_in; [symmetry; exact P|auto].
  - intros x I. apply A3. eapply Permutation_in; eauto.
Qed.

Lemma sorted_NoDup_lt l : StronglySorted KLe l -> NoDup (map key l) -> StronglySorted KLt l.
Proof.
  induction 1 as [|a l S IH F]; cbn; intros N; constructor; inversion N; subst; auto.
  rewrite Forall_forall in *. intros b Ib. specialize (F b Ib). unfold KLe, KLt in *. apply sle_alt in F.
  destruct F as [F|F]; [assumption|]. exfalso. apply H1. rewrite F. now apply in_map.
Qed.

(** stable insertion sort *)
Lemma stable_insert_perm x l : Permutation (x :: l) (stable_insert key x l).
Proof.
  induction l as [|y l IH]; cbn; [reflexivity|]. destruct (sltb (key y) (key x)); [|reflexivity].
  rewrite <- IH. constructor.
Qed.
Lemma stable_sort_perm l : Permutation l (stable_sort key l).
Proof. induction l as [|x l IH]; cbn; [reflexivity|]. rewrite <- stable_insert_perm. now constructor. Qed.

Lemma stable_insert_sorted x l : StronglySorted KLe l -> StronglySorted KLe (stable_insert key x l).
Proof.
  induction 1 as [|y l S IH F]; cbn; [repeat constructor|].
  destruct (sltb_spec (key y) (key x)) as [E|E].
  - constructor; [assumption|]. eapply Permutation_Forall; [apply stable_insert_perm|]. constructor; [|assumption].
    unfold KLe. apply sle_alt. now left.
  - assert (xy : sle (key x) (key y)) by (destruct (sle_total (key x) (key y)); [assumption|contradiction]).
    constructor; [now constructor|]. constructor; [exact xy|]. eapply Forall_impl; [|exact F].
    intros b Hb. unfold KLe in *. eapply sle_trans; eauto.
Qed.
Lemma stable_sort_sorted l : StronglySorted KLe (stable_sort key l).
Proof. induction l; cbn; [constructor|]. now apply stable_insert_sorted. Qed.
Lemma stable_sort_sorts : sorts key (stable_sort key).
Proof. intros l. split; [apply stable_sort_perm|apply stable_sort_sorted]. Qed.

(** Stability: the elements with a given key keep their order. *)
Lemma stable_insert_filter x p l :
  filter (fun y => seqb p (key y)) (stable_insert key x l) = filter (fun y => seqb p (key y)) (x :: l).
Proof.
  induction l as [|y l IH]; cbn; [reflexivity|]. destruct (sltb_spec (key y) (key x)) as [E|E]; [|reflexivity].
  cbn. rewrite IH. cbn. destruct (seqb_spec p (key x)), (seqb_spec p (key y)); auto.
  exfalso. subst. rewrite e0 in E. now apply slt_irrefl in E.
Qed.
Lemma stable_sort_filter p l :
  filter (fun y => seqb p (key y)) (stable_sort key l) = filter (fun y => seqb p (key y)) l.
Proof.
  induction l as [|x l IH]; cbn; [reflexivity|]. rewrite stable_insert_filter. cbn. now rewrite IH.
Qed.

(** [unique] keeps the first of each path. *)
Lemma unique_from_first l : forall x, StronglySorted KLe (x :: l) ->
  forall y, In y (unique_from keqb x l) ->
  exists r, filter (fun z => seqb (key y) (key z)) l = y :: r.
Proof.
  induction l as [|a l IH]; intros x S y I; cbn in *; [tauto|].
  inversion S as [|? ? S' F]; subst. inversion F as [|? ? Fa Fl]; subst. inversion S' as [|? ? S'' Fa']; subst.
  destruct (keqb_spec x a) as [E|E].
  - assert (Sx : StronglySorted KLe (x :: l)) by (constructor; auto).
    destruct (IH x Sx y I) as (r & Er).
    destruct (seqb_spec (key y) (key a)) as [E2|E2]; [|eauto].
    exfalso. destruct (unique_from_spec l x Sx) as (U1 & _ & _). inversion U1 as [|? ? _ U2]; subst.
    rewrite Forall_forall in U2. specialize (U2 y I). unfold KLt in U2. rewrite E, E2 in U2. now apply slt_irrefl in U2.
  - destruct I as [<-|I].
    + rewrite seqb_refl. eauto.
    + destruct (IH a S' y I) as (r & Er). destruct (seqb_spec (key y) (key a)) as [E2|E2]; [|eauto].
      exfalso. destruct (unique_from_spec l a S') as (U1 & _ & _). inversion U1 as [|? ? _ U2]; subst.
      rewrite Forall_forall in U2. specialize (U2 y I). unfold KLt in U2. rewrite E2 in U2. now apply slt_irrefl in U2.
Qed.
Lemma unique_first l : StronglySorted KLe l -> forall y, In y (unique keqb l) ->
  exists r, filter (fun z => seqb (key y) (key z)) l = y :: r.
Proof.
  destruct l as [|x l]; cbn; [tauto|]. intros S y [<-|I]; [rewrite seqb_refl; eauto|].
  destruct (unique_from_first l x S y I) as (r & E).
  destruct (seqb_spec (key y) (key x)) as [E2|E2]; [|eauto].
  exfalso. destruct (unique_from_spec l x S) as (U1 & _ & _). inversion U1 as [|? ? _ U2]; subst.
  rewrite Forall_forall in U2. specialize (U2 y I). unfold KLt in U2. rewrite E2 in U2. now apply slt_irrefl in U2.
Qed.

(** Looking a path up in a list. *)
Definition lookup (p : bytes) (l : list A) : option A := find (fun s => seqb p (key s)) l.
Lemma lookup_Some p l s : lookup p l = Some s -> In s l /\ key s = p.
Proof. unfold lookup. intros E. apply find_some in E. destruct E as (I & E). split; auto. destruct (seqb_spec p (key s)); congruence. Qed.
Lemma lookup_None p l : lookup p l = None <-> ~ In p (map key l).
Proof.
  unfold lookup. split.
  - intros E I. apply in_map_iff in I. destruct I as (s & <- & I). eapply find_none in E; [|exact I]. cbn in E. rewrite seqb_refl in E. discriminate.
  - intros N. destruct (find _ l) as [s|] eqn:E; [|reflexivity]. exfalso. apply N. apply lookup_Some in E. destruct E as (I & <-). now apply in_map.
Qed.
Lemma lookup_unique p l s : NoDup (map key l) -> In s l -> key s = p -> lookup p l = Some s.
Proof.
  intros N I E. destruct (lookup p l) as [t|] eqn:L.
  - apply lookup_Some in L. destruct L as (It & Et). f_equal.
    clear -N I E It Et. induction l as [|a l IH]; cbn in *; [tauto|]. inversion N; subst.
    destruct I as [<-|I], It as [<-|It]; auto.
    + exfalso. apply H1. rewrite <- Et. now apply in_map.
    + exfalso. apply H1. rewrite Et. now apply in_map.
  - apply lookup_None in L. exfalso. apply L. subst. now apply in_map.
Qed.
Lemma lookup_cons_ne p a l : p <> key a -> lookup p (a :: l) = lookup p l.
Proof. unfold lookup. cbn. destruct (seqb_spec p (key a)); congruence. Qed.
Lemma lookup_above p l : Forall (fun b => slt p (key b)) l -> lookup p l = None.
Proof.
  intros F. apply lookup_None. intros I. apply in_map_iff in I. destruct I as (b & <- & I).
  rewrite Forall_forall in F. specialize (F b I). now apply slt_irrefl in F.
Qed.
End Keyed.

Section Merge.
Variable stat : ptr -> bytes -> option (Z * N).
Variable base_dir : ptr.
Variable copy_dest : option ptr.
Variable dc : bool.
Notation merge := (merge_files stat base_dir copy_dest dc).
Notation check := (check_missing stat base_dir copy_dest dc).
Notation fmatch := (files_match copy_dest).

Definition counterpart (ss : list finfo) (c : finfo) : option finfo :=
  match lookup fi_path (fi_path c) ss with Some s => Some s | None => check c end.
Definition is_missing ss c := match counterpart ss c with None => true | Some _ => false end.
Definition is_matching ss c := match counterpart ss c with None => false | Some s => fmatch c s end.
Definition changed_list ss c := match counterpart ss c with None => [] | Some s => if fmatch c s then [] else [changed_of s c] end.
Definition is_extra cs (s : finfo) := match lookup fi_path (fi_path s) cs with None => true | Some _ => false end.

Definition files_of (cs ss : list finfo) (d0 d : diff) : Prop :=
  missing_files d = filter (is_missing ss) cs ++ missing_files d0 /\
  matching_files d = filter (is_matching ss) cs ++ matching_files d0 /\
  changed_files d = flat_map (changed_list ss) cs ++ changed_files d0 /\
  extraneous_files d = filter (is_extra cs) ss ++ extraneous_files d0 /\
  missing_dirs d = missing_dirs d0 /\ extraneous_dirs d = extraneous_dirs d0 /\ matching_dirs d = matching_dirs d0.

Lemma counterpart_cons_ne s ss c : fi_path c <> fi_path s -> counterpart (s :: ss) c = counterpart ss c.
Proof. intros N. unfold counterpart. now rewrite lookup_cons_ne. Qed.

Lemma filter_ext_Forall {A} (f g : A -> bool) l : Forall (fun x => f x = g x) l -> filter f l = filter g l.
Proof. induction 1 as [|x l E F IH]; cbn; [reflexivity|]. rewrite E, IH. reflexivity. Qed.
Lemma flat_map_ext_Forall {A B} (f g : A -> list B) l : Forall (fun x => f x = g x) l -> flat_map f l = flat_map g l.
Proof. induction 1 as [|x l E F IH]; cbn; [reflexivity|]. now rewrite E, IH. Qed.

Lemma on_missing_ok c cs ss d0 d : counterpart ss c = check c -> is_extra (c :: cs) = is_extra (c :: cs) ->
  filter (is_extra (c :: cs)) ss = filter (is_extra cs) ss ->
  files_of cs ss d0 d -> files_of (c :: cs) ss d0 (on_missing stat base_dir copy_dest dc c d).
Proof.
  intros Ec _ Ex (A1 & A2 & A3 & A4 & A5). unfold files_of. cbn [filter flat_map].
  assert (M : is_missing ss c = match check c with None => true | Some _ => false end) by (unfold is_missing; now rewrite Ec).
  assert (M2 : is_matching ss c = match check c with None => false | Some s => fmatch c s end) by (unfold is_matching; now rewrite Ec).
  assert (M3 : changed_list ss c = match check c with None => [] | Some s => if fmatch c s then [] else [changed_of s c] end) by (unfold changed_list; now rewrite Ec).
  rewrite M, M2, M3, Ex. unfold on_missing. destruct (check c) as [s|]; [destruct (fmatch c s)|];
   cbn [missing_files matching_files changed_files extraneous_files missing_dirs extraneous_dirs matching_dirs add_missing add_matching add_changed];
   rewrite ?A1, ?A2, ?A3, ?A4; cbn [app]; tauto.
Qed.

Lemma merge_files_spec : forall cs, StronglySorted (KLt fi_path) cs -> forall ss d0, StronglySorted (KLt fi_path) ss ->
  files_of cs ss d0 (merge cs ss d0).
Proof.
  induction cs as [|c cs IHc]; intros Sc.
  - induction ss as [|s ss IHs]; intros d0 Ss.
    + cbn. unfold files_of. cbn. tauto.
    + inversion Ss as [|? ? Ss' Fs]; subst. specialize (IHs d0 Ss').
      change (merge [] (s :: ss) d0) with (add_extraneous s (merge [] ss d0)).
      destruct IHs as (A1 & A2 & A3 & A4 & A5). unfold files_of.
      cbn [missing_files matching_files changed_files extraneous_files missing_dirs extraneous_dirs matching_dirs add_extraneous filter flat_map app] in *.
      rewrite A4. cbn [is_extra lookup find]. cbn [app]. tauto.
  - inversion Sc as [|? ? Sc' Fc]; subst. specialize (IHc Sc').
    induction ss as [|s ss IHs]; intros d0 Ss.
    + cbn [merge_files]. apply on_missing_ok; [reflexivity|reflexivity|reflexivity|]. apply IHc. constructor.
    + inversion Ss as [|? ? Ss' Fs]; subst. specialize (fun d => IHs d Ss'). cbn [merge_files].
      destruct (scmp (fi_path c) (fi_path s)) eqn:E.
      * apply scmp_eq in E.
        assert (Lk : lookup fi_path (fi_path c) (s :: ss) = Some s). { unfold lookup. cbn. rewrite E. now rewrite seqb_refl. }
        assert (Cp : counterpart (s :: ss) c = Some s) by (unfold counterpart; now rewrite Lk).
        assert (T : Forall (fun c' => counterpart (s :: ss) c' = counterpart ss c') cs).
        { eapply Forall_impl; [|exact Fc]. intros c' Hc'. apply counterpart_cons_ne. intros E'. unfold KLt in Hc'. rewrite E, <- E' in Hc'. now apply slt_irrefl in Hc'. }
        assert (X : Forall (fun s' => is_extra (c :: cs) s' = is_extra cs s') ss).
        { eapply Forall_impl; [|exact Fs]. intros s' Hs'. unfold is_extra. rewrite lookup_cons_ne; [reflexivity|]. intros E'. unfold KLt in Hs'. rewrite <- E, E' in Hs'. now apply slt_irrefl in Hs'. }
        assert (Xs : is_extra (c :: cs) s = false). { unfold is_extra, lookup. cbn. rewrite <- E, seqb_refl. reflexivity. }
        destruct (IHc ss d0 Ss') as (A1 & A2 & A3 & A4 & A5). unfold files_of. cbn [filter flat_map].
        rewrite Xs, (filter_ext_Forall _ _ _ X).
        rewrite (filter_ext_Forall (is_missing (s :: ss)) (is_missing ss) cs) by (eapply Forall_impl; [|exact T]; intros a Ha; unfold is_missing; now rewrite Ha).
        rewrite (filter_ext_Forall (is_matching (s :: ss)) (is_matching ss) cs) by (eapply Forall_impl; [|exact T]; intros a Ha; unfold is_matching; now rewrite Ha).
        rewrite (flat_map_ext_Forall (changed_list (s :: ss)) (changed_list ss) cs) by (eapply Forall_impl; [|exact T]; intros a Ha; unfold changed_list; now rewrite Ha).
        assert (Y1 : is_missing (s :: ss) c = false) by (unfold is_missing; now rewrite Cp).
        assert (Y2 : is_matching (s :: ss) c = fmatch c s) by (unfold is_matching; now rewrite Cp).
        assert (Y3 : changed_list (s :: ss) c = if fmatch c s then [] else [changed_of s c]) by (unfold changed_list; now rewrite Cp).
        rewrite Y1, Y2, Y3.
        destruct (fmatch c s);
        cbn [missing_files matching_files changed_files extraneous_files missing_dirs extraneous_dirs matching_dirs add_matching add_changed];
        rewrite ?A1, ?A2, ?A3, ?A4; cbn [app]; tauto.
      * apply on_missing_ok; [|reflexivity| |].
        -- unfold counterpart. rewrite lookup_above; [reflexivity|]. constructor; [exact E|]. eapply Forall_impl; [|exact Fs].
           intros b Hb. unfold KLt in Hb. eapply slt_trans; eauto.
        -- apply filter_ext_Forall. constructor.
           ++ unfold is_extra. rewrite lookup_cons_ne; [reflexivity|]. intros E'. rewrite E' in E. rewrite scmp_refl in E. discriminate.
           ++ eapply Forall_impl; [|exact Fs]. intros b Hb. unfold KLt in Hb. unfold is_extra. rewrite lookup_cons_ne; [reflexivity|].
              intros E'. rewrite E' in Hb. apply (slt_irrefl (fi_path c)). eapply slt_trans; [exact E|exact Hb].
        -- apply IHc. assumption.
      * apply scmp_gt in E. specialize (IHs d0). cbn [merge_files] in IHs.
        destruct IHs as (A1 & A2 & A3 & A4 & A5). unfold files_of.
        cbn [missing_files matching_files changed_files extraneous_files missing_dirs extraneous_dirs matching_dirs add_extraneous].
        assert (T : Forall (fun c' => counterpart (s :: ss) c' = counterpart ss c') (c :: cs)).
        { constructor; [apply counterpart_cons_ne; intros E'; rewrite E' in E; now apply slt_irrefl in E|].
          eapply Forall_impl; [|exact Fc]. intros c' Hc'. apply counterpart_cons_ne. intros E'. unfold KLt in Hc'. rewrite E' in Hc'.
          apply (slt_irrefl (fi_path s)). eapply slt_trans; eauto. }
        rewrite (filter_ext_Forall (is_missing (s :: ss)) (is_missing ss) (c :: cs)) by (eapply Forall_impl; [|exact T]; intros a Ha; unfold is_missing; now rewrite Ha).
        rewrite (filter_ext_Forall (is_matching (s :: ss)) (is_matching ss) (c :: cs)) by (eapply Forall_impl; [|exact T]; intros a Ha; unfold is_matching; now rewrite Ha).
        rewrite (flat_map_ext_Forall (changed_list (s :: ss)) (changed_list ss) (c :: cs)) by (eapply Forall_impl; [|exact T]; intros a Ha; unfold changed_list; now rewrite Ha).
        assert (Xs : is_extra (c :: cs) s = true).
        { unfold is_extra. rewrite lookup_above; [reflexivity|]. constructor; [exact E|]. eapply Forall_impl; [|exact Fc]. intros b Hb. unfold KLt in Hb. eapply slt_trans; eauto. }
        cbn [filter] in A4 |- *. rewrite Xs, A1, A2, A3. cbn [app].
        split; [reflexivity|]. split; [reflexivity|]. split; [reflexivity|]. split; [|exact A5].
        f_equal. exact A4.
Qed.

End Merge.

Section MergeDirs.
Variable copy_dest : option ptr.

(** Directories *)
Definition dmissing ss (c : dinfo) := match lookup di_path (di_path c) ss with None => true | Some s => in_copy_dest copy_dest (di_base s) end.
Definition dextra cs (s : dinfo) := match lookup di_path (di_path s) cs with None => true | Some _ => false end.
Definition dirs_of (cs ss : list dinfo) (d0 d : diff) : Prop :=
  missing_dirs d = filter (dmissing ss) cs ++ missing_dirs d0 /\
  matching_dirs d = filter (fun c => negb (dmissing ss c)) cs ++ matching_dirs d0 /\
  extraneous_dirs d = filter (dextra cs) ss ++ extraneous_dirs d0 /\
  missing_files d = missing_files d0 /\ extraneous_files d = extraneous_files d0 /\ matching_files d = matching_files d0 /\
  changed_files d = changed_files d0.

Lemma merge_dirs_spec : forall cs, StronglySorted (KLt di_path) cs -> forall ss d0, StronglySorted (KLt di_path) ss ->
  dirs_of cs ss d0 (merge_dirs copy_dest cs ss d0).
Proof.
  assert (NE : forall s ss c, di_path c <> di_path s -> dmissing (s :: ss) c = dmissing ss c).
  { intros. unfold dmissing. now rewrite lookup_cons_ne. }
  induction cs as [|c cs IHc]; intros Sc.
  - induction ss as [|s ss IHs]; intros d0 Ss.
    + cbn. unfold dirs_of. cbn. tauto.
    + inversion Ss as [|? ? Ss' Fs]; subst. specialize (IHs d0 Ss').
      change (merge_dirs copy_dest [] (s :: ss) d0) with (add_extraneous_dir s (merge_dirs copy_dest [] ss d0)).
      destruct IHs as (A1 & A2 & A3 & A4). unfold dirs_of.
      cbn [missing_files matching_files changed_files extraneous_files missing_dirs extraneous_dirs matching_dirs add_extraneous_dir filter app] in *.
      rewrite A3. cbn [dextra lookup find]. cbn [app]. tauto.
  - inversion Sc as [|? ? Sc' Fc]; subst. specialize (IHc Sc').
    induction ss as [|s ss IHs]; intros d0 Ss.
    + cbn [merge_dirs]. destruct (IHc [] d0 Ss) as (A1 & A2 & A3 & A4). unfold dirs_of.
      cbn [missing_files matching_files changed_files extraneous_files missing_dirs extraneous_dirs matching_dirs add_missing_dir filter app] in *.
      change (dmissing [] c) with true. cbn [negb]. rewrite A1, A2, A3. cbn [app]. tauto.
    + inversion Ss as [|? ? Ss' Fs]; subst. specialize (fun d => IHs d Ss'). cbn [merge_dirs].
      destruct (scmp (di_path c) (di_path s)) eqn:E.
      * apply scmp_eq in E.
        assert (Cp : dmissing (s :: ss) c = in_copy_dest copy_dest (di_base s)). { unfold dmissing, lookup. cbn. rewrite E, seqb_refl. reflexivity. }
        assert (T : Forall (fun c' => dmissing (s :: ss) c' = dmissing ss c') cs).
        { eapply Forall_impl; [|exact Fc]. intros c' Hc'. apply NE. intros E'. unfold KLt in Hc'. rewrite E, <- E' in Hc'. now apply slt_irrefl in Hc'. }
        assert (X : Forall (fun s' => dextra (c :: cs) s' = dextra cs s') ss).
        { eapply Forall_impl; [|exact Fs]. intros s' Hs'. unfold dextra. rewrite lookup_cons_ne; [reflexivity|]. intros E'. unfold KLt in Hs'. rewrite <- E, E' in Hs'. now apply slt_irrefl in Hs'. }
        assert (Xs : dextra (c :: cs) s = false). { unfold dextra, lookup. cbn. rewrite <- E, seqb_refl. reflexivity. }
        destruct (IHc ss d0 Ss') as (A1 & A2 & A3 & A4). unfold dirs_of. cbn [filter].
        rewrite Xs, (filter_ext_Forall _ _ _ X), (filter_ext_Forall _ _ _ T), Cp.
        rewrite (filter_ext_Forall (fun c0 => negb (dmissing (s :: ss) c0)) (fun c0 => negb (dmissing ss c0)) cs) by (eapply Forall_impl; [|exact T]; intros a Ha; cbn; now rewrite Ha).
        destruct (in_copy_dest copy_dest (di_base s));
        cbn [negb missing_files matching_files changed_files extraneous_files missing_dirs extraneous_dirs matching_dirs add_matching_dir add_missing_dir];
        rewrite ?A1, ?A2, ?A3; cbn [app]; tauto.
      * destruct (IHc (s :: ss) d0 Ss) as (A1 & A2 & A3 & A4). unfold dirs_of.
        assert (M : dmissing (s :: ss) c = true).
        { unfold dmissing. rewrite lookup_above; [reflexivity|]. constructor; [exact E|]. eapply Forall_impl; [|exact Fs].
          intros b Hb. unfold KLt in Hb. eapply slt_trans; eauto. }
        assert (X : filter (dextra (c :: cs)) (s :: ss) = filter (dextra cs) (s :: ss)).
        { apply filter_ext_Forall. constructor.
           ++ unfold dextra. rewrite lookup_cons_ne; [reflexivity|]. intros E'. rewrite E' in E. rewrite scmp_refl in E. discriminate.
           ++ eapply Forall_impl; [|exact Fs]. intros b Hb. unfold KLt in Hb. unfold dextra. rewrite lookup_cons_ne; [reflexivity|].
              intros E'. rewrite E' in Hb. apply (slt_irrefl (di_path c)). eapply slt_trans; [exact E|exact Hb]. }
        rewrite X. cbn [missing_files matching_files changed_files extraneous_files missing_dirs extraneous_dirs matching_dirs add_missing_dir].
        change (filter (dmissing (s :: ss)) (c :: cs)) with (if dmissing (s :: ss) c then c :: filter (dmissing (s :: ss)) cs else filter (dmissing (s :: ss)) cs).
        change (filter (fun c0 => negb (dmissing (s :: ss) c0)) (c :: cs)) with (if negb (dmissing (s :: ss) c) then c :: filter (fun c0 => negb (dmissing (s :: ss) c0)) cs else filter (fun c0 => negb (dmissing (s :: ss) c0)) cs).
        rewrite M. cbn [negb]. rewrite A1, A2, A3. cbn [app]. tauto.
      * apply scmp_gt in E. specialize (IHs d0). cbn [merge_dirs] in IHs.
        destruct IHs as (A1 & A2 & A3 & A4). unfold dirs_of.
        cbn [missing_files matching_files changed_files extraneous_files missing_dirs extraneous_dirs matching_dirs add_extraneous_dir].
        assert (T : Forall (fun c' => dmissing (s :: ss) c' = dmissing ss c') (c :: cs)).
        { constructor; [apply NE; intros E'; rewrite E' in E; now apply slt_irrefl in E|].
          eapply Forall_impl; [|exact Fc]. intros c' Hc'. apply NE. intros E'. unfold KLt in Hc'. rewrite E' in Hc'.
          apply (slt_irrefl (di_path s)). eapply slt_trans; eauto. }
        rewrite (filter_ext_Forall _ _ _ T).
        rewrite (filter_ext_Forall (fun c0 => negb (dmissing (s :: ss) c0)) (fun c0 => negb (dmissing ss c0)) (c :: cs)) by (eapply Forall_impl; [|exact T]; intros a Ha; cbn; now rewrite Ha).
        assert (Xs : dextra (c :: cs) s = true).
        { unfold dextra. rewrite lookup_above; [reflexivity|]. constructor; [exact E|]. eapply Forall_impl; [|exact Fc]. intros b Hb. unfold KLt in Hb. eapply slt_trans; eauto. }
        cbn [filter] in A3 |- *. rewrite Xs, A1, A2. cbn [app].
        split; [reflexivity|]. split; [reflexivity|]. split; [f_equal; exact A3|]. exact A4.
Qed.
End MergeDirs.
