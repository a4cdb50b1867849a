(** What the updater's operations do to the manifest: contents and lists. *)
From Verif Require Import Base ListX Str ModelText ModelPath SpecPath ModelCdc ModelChunkMap ModelProvider ModelAsset SpecAsset
  ModelManifest SpecManifest ProofManifest ProofTree PropManifest ProofAtDir ModelUpdater SpecUpdater ProofUpdater.
Local Open Scope N_scope.

Section Effect.
Context (store : cid -> option (list asset)).
Notation listed := (listed store).
Notation node := (node store).
Notation children := (children store).
Notation view := (view store).

(** * Operations on a directory that is found by its path *)
Definition probe (d : asset) (L : lists) : (asset * lists) * asset * lists := ((d, L), d, L).

Lemma at_dir_same {X} now m (k k' : asset -> lists -> X * asset * lists) pth : forall dir L,
  (forall d Ld r L', at_dir store now m pth dir L probe = (inl (d, Ld), r, L') -> k d Ld = k' d Ld) ->
  at_dir store now m pth dir L k = at_dir store now m pth dir L k'.
Proof.
  induction pth as [|n rest IH]; intros dir L H.
  { cbn [at_dir]. rewrite (H dir L dir L eq_refl). reflexivity. }
  cbn [at_dir] in *. destruct (find_split n (a_dirs dir)) as [[[pre a] post]|].
  - destruct (as_dir now m a) as [a0|]; [|reflexivity]. rewrite (IH a0 L); [reflexivity|]. intros d Ld r L' E. rewrite E in H. eapply H. reflexivity.
  - destruct (find_ind store n (a_ind dir) L) as [[id pre a post| |] L1]; [| |reflexivity].
    + destruct (as_dir now m a) as [a0|]; [|reflexivity]. rewrite (IH a0 L1); [reflexivity|]. intros d Ld r L' E. rewrite E in H. eapply H. reflexivity.
    + destruct m; [reflexivity| |]; (rewrite (IH (new_asset now n TDir) L1); [reflexivity|]; intros d Ld r L' E; rewrite E in H; eapply H; reflexivity).
Qed.

Definition ref_b (now : N) (b : builder) : Prop := forall now', root_of now' b = root_of now b.
Lemma ref_some now r L : ref_b now (mkb (Some r) L).
Proof. intros now'. reflexivity. Qed.

Record beff (now : N) (b b' : builder) (ds : path) (w : path -> option info) : Prop := mkbeff {
  be_root : b_root b' <> None;
  be_tidy : btidy store now b';
  be_view : forall q, bview store now b' q = w q;
  be_clean : forall p, is_prefix p ds = false -> clean_at store b now p -> clean_at store b' now p;
  be_own : forall id p, owned store (b_lists b') (root_of now b') id p -> owned store (b_lists b) (root_of now b) id p }.

Lemma lists_own now b b' ds : lists_ok store now b b' ds ->
  forall id p, owned store (b_lists b') (root_of now b') id p -> owned store (b_lists b) (root_of now b) id p.
Proof. intros [S _] id p (d & N & T & I). pose proof (st_ok _ _ _ _ _ _ _ S p d N T) as D. exact (ok_own _ _ _ _ _ D id I). Qed.

Lemma strip_self p : strip p p = Some [].
Proof. induction p as [|n p IH]; [reflexivity|]. cbn. now rewrite name_eqb_refl. Qed.
Lemma strip_app p s : strip p (p ++ s) = Some s.
Proof. induction p as [|n p IH]; [reflexivity|]. cbn. now rewrite name_eqb_refl. Qed.

Section NoCreate.
Context {X : Type} (now : N) (k : asset -> lists -> X * asset * lists).
Context (own_k : forall own : cid -> path -> Prop, (forall id (p q : path), own id p -> own id q -> p = q) ->
  forall p d L x d' L', ok_at store own L p d -> a_type d = TDir -> k d L = (x, d', L') -> step store own p d L d' L').
Context (lists_k : forall d L x d' L', a_type d = TDir -> k d L = (x, d', L') -> forall id, listed L' id = listed L id \/ In id (a_ind d)).

Lemma at_dir_no P b r root L : btidy store now b -> at_dir store now NoCreate P (root_of now b) (b_lists b) k = (r, root, L) ->
  let b' := mkb (Some root) L in
  btidy store now b' /\ lists_ok store now b b' P /\
  match r with
  | inl x => exists d Ld d' Ld', k d Ld = (x, d', Ld') /\ a_type d = TDir /\ node (b_lists b) (root_of now b) P = Some d /\
      ok_at store (owned store (b_lists b) (root_of now b)) Ld P d /\
      (forall id, listed Ld id = listed (b_lists b) id) /\ is_dir (bview store now b P) = true /\
      (forall q, bview store now b' q = match strip P q with Some s => view Ld' d' s | None => bview store now b q end)
  | inr _ => forall q, bview store now b' q = bview store now b q
  end.
Proof.
  intros (T & Ti) E b'. pose proof (owned_fun store _ _ Ti) as Of.
  destruct (at_dir_spec store _ Of now NoCreate k (own_k _ Of) P [] _ _ _ _ _ (tidy_ok _ _ _ Ti) T E) as (S & _ & Post).
  split; [split; [apply S|exact (step_tidy store _ _ _ _ Ti S)]|]. split.
  { constructor; [exact S|]. cbn [b_lists]. intros id. exact (at_dir_lists store _ now NoCreate k lists_k P [] _ _ _ _ _ (tidy_ok _ _ _ Ti) T E id). }
  destruct r as [x|e]; cbn [at_dir_post] in Post; [|apply Post].
  destruct Post as (d & Ld & d' & Ld' & Ek & Td & Okd & Vd & Vq & Pn & _ & _ & Pl & Pd). specialize (Pn eq_refl). specialize (Pd Pn).
  exists d, Ld, d', Ld'. repeat (split; [assumption|]). intros q. unfold bview, b' in *. cbn [b_lists root_of b_root] in *. rewrite Vq.
  destruct (strip P q) eqn:St; [reflexivity|]. destruct (is_prefix q P) eqn:Pr; [|reflexivity].
  apply is_prefix_spec in Pr. destruct Pr as (s & ->). now rewrite (view_above _ _ _ _ _ Pn).
Qed.
End NoCreate.

Lemma probe_step own p d L x d' L' : ok_at store own L p d -> a_type d = TDir -> probe d L = (x, d', L') -> step store own p d L d' L'.
Proof. intros H T E. inversion E; subst. constructor; auto. apply touches_refl. Qed.

(** What [k] is applied to. *)
Lemma probed now P b d Ld r L : btidy store now b -> at_dir store now NoCreate P (root_of now b) (b_lists b) probe = (inl (d, Ld), r, L) ->
  a_type d = TDir /\ node (b_lists b) (root_of now b) P = Some d /\ (forall id, listed Ld id = listed (b_lists b) id).
Proof.
  intros T E. apply at_dir_no in E; auto.
  - destruct E as (_ & _ & d0 & L0 & d1 & L1 & Ek & Td & N & _ & Ll & _). inversion Ek; subst. auto.
  - intros own _. apply probe_step.
  - intros a l x a' l' _ Ep id. inversion Ep; subst. now left.
Qed.

(** * GetOrCreateAsset and DeleteAsset *)
Lemma create_eff now P ty force f b c b' : Forall good_name P -> btidy store now b -> (forall i, i_type (f i) = i_type i) ->
  get_or_create store now (pstr P) ty force f b = (inr c, b') ->
  beff now b b' (removelast P) (after_create now (bview store now b) P ty f) /\ create_result (bview store now b) P ty force = inr c.
Proof.
  intros F T Hf E. pose proof (C28_create store now _ _ _ _ _ _ _ T Hf E) as (T' & _ & R & V). rewrite pstr_split in R, V by exact F.
  split; [|exact R].
  assert (Lo : lists_ok store now b b' (removelast P)).
  { unfold get_or_create in E. rewrite pstr_split in E by exact F. eapply create_lists_ok; [exact T|exact Hf| |exact E]. eapply Forall_impl; [|exact F]. intros n (N & _). exact N. }
  constructor; [|apply T'|apply V| |eapply lists_own; exact Lo].
  - unfold get_or_create, create_parts in E. match type of E with (let (_, _) := ?e in _) = _ => destruct e as [[[r0|e0] rt] Lx] end; inversion E; discriminate.
  - intros p Pp C. eapply clean_frame; [exact T|exact Lo|exact Pp|exact C].
Qed.

Lemma delete_eff now P b b' : Forall good_name P -> btidy store now b -> delete_asset store now (pstr P) b = (None, b') ->
  P <> [] /\ beff now b b' (removelast P) (after_delete (bview store now b) P).
Proof.
  intros F T E. pose proof (C28_delete store now _ _ _ _ T E) as (T' & _ & R & V). rewrite pstr_split in R, V by exact F.
  split; [exact R|].
  assert (Lo : lists_ok store now b b' (removelast P)).
  { unfold delete_asset in E. rewrite pstr_split in E by exact F. eapply delete_lists_ok; eassumption. }
  constructor; [|exact T'|exact V| |eapply lists_own; exact Lo].
  - unfold delete_asset in E. rewrite pstr_split in E by exact F. unfold delete_parts in E. destruct P as [|n P]; [easy|].
    match type of E with (let (_, _) := ?e in _) = _ => destruct e as [[[r0|[]] rt] Lx] end; inversion E; discriminate.
  - intros p Pp C. eapply clean_frame; [exact T|exact Lo|exact Pp|exact C].
Qed.

(** * Setting fields of a directory *)
Lemma set_info_eff now P g b r root L : btidy store now b -> (forall i, i_type (g i) = i_type i) ->
  at_dir store now NoCreate P (root_of now b) (b_lists b) (fun dir L => (tt, set_info dir (g (a_info dir)), L)) = (inl r, root, L) ->
  beff now b (mkb (Some root) L) P (fun q => if path_eqb q P then option_map g (bview store now b P) else bview store now b q) /\ is_dir (bview store now b P) = true.
Proof.
  intros T Hg E. apply at_dir_no in E; auto.
  - cbn [b_root b_lists] in E. destruct E as (T' & Lo & d & Ld & d' & Ld' & Ek & Td & N & Okd & Ll & Di & V). inversion Ek; subst r d' Ld'. clear Ek.
    split; [|exact Di]. constructor; [discriminate|exact T'| |intros p Pp C; eapply clean_frame; [exact T|exact Lo|exact Pp|exact C]|eapply lists_own; exact Lo].
    intros q. rewrite V. destruct (strip P q) as [s|] eqn:St.
    + apply strip_some in St. subst q. destruct s as [|n s].
      * rewrite app_nil_r. replace (path_eqb P P) with true by (symmetry; now apply path_eqb_eq). unfold bview, SpecManifest.view. rewrite N. reflexivity.
      * replace (path_eqb (P ++ n :: s) P) with false by (symmetry; apply Bool.not_true_is_false; intros H; apply path_eqb_eq in H; apply (f_equal (@length _)) in H; rewrite app_length in H; cbn in H; lia).
        unfold SpecManifest.view. rewrite node_info by apply Hg. unfold bview, SpecManifest.view. rewrite node_app, N. f_equal. now apply node_listed.
    + apply strip_none in St. destruct (path_eqb q P) eqn:Eq; [|reflexivity]. apply path_eqb_eq in Eq. subst q. exfalso. apply Bool.not_true_iff_false in St. apply St. apply is_prefix_spec. exists []. now rewrite app_nil_r.
  - intros own Of p d l x d' L' Ok Td Ek. inversion Ek; subst. constructor; auto.
    + unfold a_type, set_info in *. cbn. now rewrite Hg.
    + now apply ok_info.
    + apply touches_refl.
  - intros d l x d' L' Td Ek id. inversion Ek; subst. now left.
Qed.

(** * AppendAsset *)
Definition blank (ty : atype) : info := mkinfo ty 0 0 (mkfp 0 [] []) [] false.

Lemma no_child now b P d n : btidy store now b -> node (b_lists b) (root_of now b) P = Some d -> a_type d = TDir -> bview store now b (P ++ [n]) = None ->
  ~ In n (map a_name (children (b_lists b) d)).
Proof.
  intros T N Td V. unfold bview, SpecManifest.view in V. rewrite node_app, N, node_cons, Td in V. cbn [type_eqb] in V.
  apply find_named_none. destruct (find (named n) (children (b_lists b) d)); [discriminate|reflexivity].
Qed.

Lemma append_eff now D n rel name ty f b b' : Forall good_name D -> join rel name = pstr D -> btidy store now b -> bview store now b (D ++ [n]) = None ->
  append_asset store now (rel, name) n ty f b = (None, b') ->
  beff now b b' D (fun q => if path_eqb q (D ++ [n]) then Some (f (blank ty)) else bview store now b q).
Proof.
  intros F J T V E. unfold append_asset in E. cbn [fst snd] in E. rewrite J, pstr_split in E by exact F.
  set (k' := fun (d : asset) (L : lists) => if existsb (name_eqb n) (map a_name (children L d)) then (tt, d, L) else append_child n ty f d L).
  rewrite (at_dir_same now NoCreate _ k') in E.
  2:{ intros d Ld r L Ep. apply probed in Ep; [|exact T]. destruct Ep as (Td & N & Ll). unfold k'.
      destruct (existsb (name_eqb n) (map a_name (children Ld d))) eqn:Ex; [|reflexivity]. exfalso. apply existsb_exists in Ex. destruct Ex as (x & I & Ex).
      apply name_eqb_eq in Ex. subst x. rewrite (children_listed store _ _ _ Ll) in I. exact (no_child _ _ _ _ _ T N Td V I). }
  match type of E with (let (_, _) := ?e in _) = _ => destruct e as [[[[]|e0] root] L] eqn:Ea end; [|discriminate]. inversion E; subst b'. clear E.
  assert (Ne : forall d L, existsb (name_eqb n) (map a_name (children L d)) = false -> ~ In n (map a_name (children L d))).
  { intros d l Ex I. assert (X : existsb (name_eqb n) (map a_name (children l d)) = true) by (apply existsb_exists; exists n; split; [exact I|apply name_eqb_refl]). congruence. }
  set (a := Asset n (f (blank ty)) [] []).
  assert (Ad : forall own : cid -> path -> Prop, (forall id (p q : path), own id p -> own id q -> p = q) -> forall p d l, ok_at store own l p d -> a_type d = TDir -> ~ In n (map a_name (children l d)) ->
    step store own p d l (set_dirs d (a_dirs d ++ [a])) l /\
    (forall m r, m <> n -> view l (set_dirs d (a_dirs d ++ [a])) (m :: r) = view l d (m :: r)) /\
    (forall r, view l (set_dirs d (a_dirs d ++ [a])) (n :: r) = view l a r)).
  { intros own Of p d l Ok Td Ni. exact (direct_add store own Of p d l a l Ok Td Ni (ok_leaf store own l _ a eq_refl eq_refl) (touches_refl own _ _) (fun _ x => x)). }
  apply at_dir_no in Ea; auto.
  - cbn [b_root b_lists] in Ea. destruct Ea as (T' & Lo & d & Ld & d' & Ld' & Ek & Td & N & Okd & Ll & Di & Vq).
    constructor; [discriminate|exact T'| |intros p Pp C; eapply clean_frame; [exact T|exact Lo|exact Pp|exact C]|eapply lists_own; exact Lo].
    assert (Ni : ~ In n (map a_name (children Ld d))) by (rewrite (children_listed store _ _ _ Ll); exact (no_child _ _ _ _ _ T N Td V)).
    unfold k' in Ek. destruct (existsb (name_eqb n) (map a_name (children Ld d))) eqn:Ex.
    { exfalso. apply existsb_exists in Ex. destruct Ex as (x & I & Ex). apply name_eqb_eq in Ex. subst x. contradiction. }
    change (append_child n ty f d Ld) with (tt, set_dirs d (a_dirs d ++ [a]), Ld) in Ek. inversion Ek; subst d' Ld'. clear Ek.
    destruct (Ad _ (owned_fun store _ _ (proj2 T)) _ _ _ Okd Td Ni) as (_ & V1 & V2).
    intros q. rewrite Vq. destruct (strip D q) as [s|] eqn:St.
    + apply strip_some in St. subst q. rewrite path_eqb_app. destruct s as [|m s].
      * cbn [path_eqb is_prefix andb]. rewrite app_nil_r. unfold bview, SpecManifest.view. rewrite N. reflexivity.
      * destruct (name_eqb m n) eqn:En.
        -- apply name_eqb_eq in En. subst m. rewrite V2. destruct s as [|m s].
           ++ replace (path_eqb [n] [n]) with true by (symmetry; now apply path_eqb_eq). reflexivity.
           ++ replace (path_eqb (n :: m :: s) [n]) with false by (symmetry; apply Bool.not_true_is_false; intros H; apply path_eqb_eq in H; discriminate). rewrite view_leaf by reflexivity.
              symmetry. replace (D ++ n :: m :: s) with ((D ++ [n]) ++ m :: s) by (rewrite <- app_assoc; reflexivity).
              apply view_below; [|discriminate]. fold (bview store now b (D ++ [n])). now rewrite V.
        -- replace (path_eqb (m :: s) [n]) with false by (symmetry; apply Bool.not_true_is_false; intros H; apply path_eqb_eq in H; apply name_eqb_neq in En; congruence). rewrite V1 by (now apply name_eqb_neq).
           unfold bview, SpecManifest.view. rewrite node_app, N. f_equal. now apply node_listed.
    + apply strip_none in St. destruct (path_eqb q (D ++ [n])) eqn:Eq; [|reflexivity]. apply path_eqb_eq in Eq. subst q. exfalso. apply Bool.not_true_iff_false in St. apply St. apply is_prefix_spec. eauto.
  - intros own Of p d l x d' L' Ok Td Ek. unfold k' in Ek. destruct (existsb _ _) eqn:Ex in Ek.
    + inversion Ek; subst. constructor; auto. apply touches_refl.
    + inversion Ek; subst. apply (Ad own Of p d L' Ok Td (Ne _ _ Ex)).
  - intros d l x d' L' Td Ek id. unfold k' in Ek. destruct (existsb _ _) in Ek; inversion Ek; subst; now left.
Qed.
End Effect.
