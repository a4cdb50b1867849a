(** Which lists an operation on a directory may change. *)
From Verif Require Import Base ListX Str ModelText ModelChunkMap ModelProvider ModelAsset ModelManifest SpecManifest ProofManifest ProofTree.
Local Open Scope N_scope.

Section Lists.
Context (store : cid -> option (list asset)) (own : cid -> path -> Prop) (own_fun : forall id p q, own id p -> own id q -> p = q).
Notation listed := (listed store).
Notation node := (node store).
Notation children := (children store).

(** [id] is a list of a directory on the way to [pth]. *)
Definition on_way (pth : path) (L : lists) (dir : asset) (id : cid) : Prop :=
  exists q d, is_prefix q pth = true /\ node L dir q = Some d /\ a_type d = TDir /\ In id (a_ind d).

Section Walk.
Context {X : Type} (now : N) (m : mode) (k : asset -> lists -> X * asset * lists).
Context (Hk : forall d L x d' L', a_type d = TDir -> k d L = (x, d', L') -> forall id, listed L' id = listed L id \/ In id (a_ind d)).

Lemma at_dir_lists pth : forall p dir L r dir' L', ok_at store own L p dir -> a_type dir = TDir -> at_dir store now m pth dir L k = (r, dir', L') ->
  forall id, listed L' id = listed L id \/ on_way pth L dir id.
Proof.
  induction pth as [|n rest IH]; intros p dir L r dir' L' H T E id.
  { cbn [at_dir] in E. destruct (k dir L) as [[x d'] Ld'] eqn:Ek. inversion E; subst. destruct (Hk _ _ _ _ _ T Ek id) as [U|U]; [now left|right].
    exists [], dir. repeat split; auto. }
  assert (Here : forall j, In j (a_ind dir) -> on_way (n :: rest) L dir j) by (intros j I; exists [], dir; repeat split; auto).
  assert (Child : forall a L1, In a (children L dir) -> a_name a = n -> (forall j, listed L1 j = listed L j) -> ok_at store own L1 p dir ->
     forall a0, as_dir now m a = Some a0 -> forall r0 a' La, at_dir store now m rest a0 L1 k = (r0, a', La) ->
     listed La id = listed L id \/ on_way (n :: rest) L dir id).
  { intros a L1 Ia En Ll Ok1 a0 Ea r0 a' La Er. unfold as_dir in Ea. destruct (type_eqb (a_type a) TDir) eqn:Ta.
    - inversion Ea; subst a0. apply type_eqb_eq in Ta. assert (Oka : ok_at store own L1 (p ++ [n]) a).
      { rewrite <- En. eapply ok_child; [exact Ok1|exact T|]. now rewrite (children_listed store L L1). }
      destruct (IH _ _ _ _ _ _ Oka Ta Er id) as [U|(q & d & P & N & Td & I)]; [left; now rewrite U|right].
      exists (n :: q), d. split; [cbn; now rewrite name_eqb_refl|]. split; [|auto]. rewrite node_cons, T. cbn [type_eqb].
      rewrite (find_unique n (children L dir) a); auto; [|apply (ok_self store own L p dir H T)]. now rewrite <- (node_listed store L L1).
    - destruct m; try discriminate. inversion Ea; subst a0. assert (Ok0 : ok_at store own L1 (p ++ [n]) (new_asset now (a_name a) TDir)) by (now apply ok_leaf).
      destruct (IH _ _ _ _ _ _ Ok0 eq_refl Er id) as [U|(q & d & P & N & Td & I)]; [left; now rewrite U|exfalso].
      destruct q; [inversion N; subst; destruct I|]. cbn in N. discriminate. }
  cbn [at_dir] in E. destruct (find_split n (a_dirs dir)) as [[[pre a] post]|] eqn:F.
  - apply find_split_some in F. destruct F as (F1 & Fn & _). destruct (as_dir now m a) as [a0|] eqn:Ea; [|inversion E; subst; now left].
    destruct (at_dir store now m rest a0 L k) as [[r0 a'] La] eqn:Er. inversion E; subst r dir' L'.
    eapply (Child a L); eauto. eapply in_direct; exact F1.
  - destruct (find_ind store n (a_ind dir) L) as [o L1] eqn:G. apply find_ind_spec in G. destruct G as (Lo & G).
    pose proof (loads_ok store own L L1 p dir H T Lo) as Ok1. assert (Ll : forall j, listed L1 j = listed L j) by apply Lo.
    destruct o as [j pre a post| |].
    + destruct G as (G1 & G2 & G3 & Fn). assert (Ia : In a (children L dir)) by (apply (in_list store L dir j a G1); rewrite G3, in_app_iff; right; now left).
      destruct (as_dir now m a) as [a0|] eqn:Ea; [|inversion E; subst; left; apply Ll].
      destruct (at_dir store now m rest a0 L1 k) as [[r0 a'] La] eqn:Er. inversion E; subst r dir' L'.
      destruct (list_eq_dec N.eq_dec id j) as [->|D]; [right; now apply Here|].
      destruct (Child a L1 Ia Fn Ll Ok1 a0 Ea r0 a' La Er) as [U|U]; [left|now right].
      rewrite <- U. unfold SpecManifest.listed, lset. destruct (list_eq_dec N.eq_dec id j); [contradiction|reflexivity].
    + assert (Cr : forall r0 a' La, at_dir store now m rest (new_asset now n TDir) L1 k = (r0, a', La) -> listed La id = listed L id \/ on_way (n :: rest) L dir id).
      { intros r0 a' La Er. assert (Ok0 : ok_at store own L1 (p ++ [n]) (new_asset now n TDir)) by (now apply ok_leaf).
        destruct (IH _ _ _ _ _ _ Ok0 eq_refl Er id) as [U|(q & d & P & N & Td & I)]; [left; now rewrite U|exfalso].
        destruct q; [inversion N; subst; destruct I|]. cbn in N. discriminate. }
      clear IH Child. remember (at_dir store now m rest (new_asset now n TDir) L1 k) as z eqn:Er. destruct z as [[r0 a'] La]. symmetry in Er.
      assert (Hm : m = NoCreate \/ (r0, Asset (a_name dir) (a_info dir) (a_dirs dir ++ [a']) (a_ind dir), La) = (r, dir', L')).
      { destruct m; [now left| |]; right; exact E. }
      destruct Hm as [Hm|Hm]; [|inversion Hm; subst; eapply Cr; reflexivity].
      left. revert E. rewrite Hm. intros E. inversion E; subst. apply Ll.
    + inversion E; subst. left. apply Ll.
Qed.
End Walk.

Lemma delete_lists n d L x d' L' : delete_from_dir store n d L = (x, d', L') -> forall id, listed L' id = listed L id \/ In id (a_ind d).
Proof.
  unfold delete_from_dir. intros E id. destruct (negb _); [inversion E; now left|]. destruct (find_split n (a_dirs d)) as [[[pre a] post]|]; [inversion E; now left|].
  destruct (find_ind store n (a_ind d) L) as [o L1] eqn:G. apply find_ind_spec in G. destruct G as (Lo & G). destruct o as [j pre a post| |]; inversion E; subst.
  - destruct (list_eq_dec N.eq_dec id j) as [->|D]; [right; apply G|left]. rewrite <- (proj1 Lo id). unfold SpecManifest.listed, lset.
    destruct (list_eq_dec N.eq_dec id j); [contradiction|reflexivity].
  - left. apply Lo.
  - left. apply Lo.
Qed.
Lemma delete_ind n d L x d' L' : delete_from_dir store n d L = (x, d', L') -> a_ind d' = a_ind d.
Proof.
  unfold delete_from_dir. intros E. destruct (negb _); [inversion E; reflexivity|]. destruct (find_split n (a_dirs d)) as [[[pre a] post]|]; [inversion E; reflexivity|].
  destruct (find_ind store n (a_ind d) L) as [[j pre a post| |] L1]; inversion E; reflexivity.
Qed.
Lemma get_lists now n ty force f d L x d' L' : get_in_dir store now n ty force f d L = (x, d', L') -> forall id, listed L' id = listed L id \/ In id (a_ind d).
Proof.
  unfold get_in_dir. intros E id. destruct (negb _); [inversion E; now left|].
  assert (Rep : forall L0, (forall j, listed L0 j = listed L j) -> match delete_from_dir store n d L0 with (Some e, dir1, L1) => (inl e, dir1, L1) | (None, dir1, L1) => (inr true, add_new now n ty f dir1, L1) end = (x, d', L') ->
    listed L' id = listed L id \/ In id (a_ind d)).
  { intros L0 H E0. destruct (delete_from_dir store n d L0) as [[[e|] d1] L1] eqn:Ed; inversion E0; subst; rewrite <- (H id); eapply delete_lists; exact Ed. }
  destruct (find_split n (a_dirs d)) as [[[pre a] post]|].
  - destruct (type_eqb ty TUnknown || type_eqb (a_type a) ty); [inversion E; now left|]. destruct force; [|inversion E; now left]. eapply Rep; [|exact E]. auto.
  - destruct (find_ind store n (a_ind d) L) as [o L1] eqn:G. apply find_ind_spec in G. destruct G as (Lo & G). destruct o as [j pre a post| |].
    + destruct (type_eqb ty TUnknown || type_eqb (a_type a) ty).
      * inversion E; subst. destruct (list_eq_dec N.eq_dec id j) as [->|D]; [right; apply G|left]. rewrite <- (proj1 Lo id). unfold SpecManifest.listed, lset.
        destruct (list_eq_dec N.eq_dec id j); [contradiction|reflexivity].
      * destruct force; [|inversion E; subst; left; apply Lo]. eapply Rep; [|exact E]. apply Lo.
    + destruct (type_eqb ty TUnknown); inversion E; subst; left; apply Lo.
    + inversion E; subst; left; apply Lo.
Qed.
End Lists.

(** * The whole builder *)
Section Builder.
Context (store : cid -> option (list asset)).

(** The lists of the directory at [p] are as stored. *)
Definition clean_at (b : builder) (now : N) (p : path) : Prop :=
  forall d id, node store (b_lists b) (root_of now b) p = Some d -> a_type d = TDir -> In id (a_ind d) -> listed store (b_lists b) id = stored store id.

(** What every operation guarantees about lists. *)
Record lists_ok (now : N) (b b' : builder) (ds : path) : Prop := {
  lo_step : step store (owned store (b_lists b) (root_of now b)) [] (root_of now b) (b_lists b) (root_of now b') (b_lists b');
  lo_listed : forall id, listed store (b_lists b') id = listed store (b_lists b) id \/ on_way store ds (b_lists b) (root_of now b) id }.

Lemma clean_frame now b b' ds p : btidy store now b -> lists_ok now b b' ds -> is_prefix p ds = false -> clean_at b now p -> clean_at b' now p.
Proof.
  intros (T & Ti) [S Ls] P C d id N Td I.
  pose proof (ok_own _ _ _ _ _ (st_ok _ _ _ _ _ _ _ S p d N Td) id I) as (d0 & N0 & T0 & I0). cbn [app] in N0.
  destruct (Ls id) as [U|(q & e & Pq & Ne & Te & Ie)]; [rewrite U; eapply C; eassumption|].
  assert (q = p) by (eapply (tidy_unshared _ _ _ Ti); eassumption). subst q. congruence.
Qed.

Lemma create_lists_ok now parts ty force f b r b' : btidy store now b -> (forall i, i_type (f i) = i_type i) -> Forall (fun n => n <> []) parts ->
  create_parts store now parts ty force f b = (r, b') -> lists_ok now b b' (removelast parts).
Proof.
  intros (T & Ti) Hf Hn E. assert (E' : create_parts store now parts ty force f (mkb (Some (root_of now b)) (b_lists b)) = (r, b')) by exact E.
  pose proof (create_spec store (owned store (b_lists b) (root_of now b)) (owned_fun store _ _ Ti) now ty force f _ _ parts r b' Hf Hn (tidy_ok _ _ _ Ti) T E') as (root' & L' & -> & S & _).
  constructor; [exact S|]. cbn [b_lists]. unfold create_parts in E.
  match type of E with context [at_dir _ _ ?mm _ _ _ ?kk] => set (k := kk) in E; set (md := mm) in E end. match type of E with (let (_, _) := ?e in _) = _ => destruct e as [[r0 rt] Lx] eqn:Ea end.
  assert (Lx = L') by (destruct r0; inversion E; reflexivity). subst Lx.
  intros id. refine (at_dir_lists store _ now md k _ _ [] _ _ _ _ _ (tidy_ok _ _ _ Ti) T Ea id). clear id.
  intros d L x d' Ld Td Ek id. unfold k in Ek. match type of Ek with (match ?e with [] => _ | _ => _ end) = _ => destruct e as [|c n] end.
  - destruct (type_eqb ty TDir || type_eqb ty TUnknown).
    { inversion Ek; subst. left. reflexivity. }
    { inversion Ek; subst. left. reflexivity. }
  - eapply get_lists; exact Ek.
Qed.
Lemma delete_lists_ok now parts b b' r : btidy store now b -> delete_parts store now parts b = (r, b') -> parts <> [] -> lists_ok now b b' (removelast parts).
Proof.
  intros (T & Ti) E Np. assert (E' : delete_parts store now parts (mkb (Some (root_of now b)) (b_lists b)) = (r, b')) by (destruct parts; [easy|exact E]).
  pose proof (delete_parts_spec store (owned store (b_lists b) (root_of now b)) (owned_fun store _ _ Ti) now _ _ parts r b' (tidy_ok _ _ _ Ti) T E') as (root' & L' & -> & S & _).
  constructor; [exact S|]. cbn [b_lists]. unfold delete_parts in E. destruct parts as [|n ps]; [easy|]. set (parts := n :: ps) in *.
  match type of E with (let (_, _) := ?e in _) = _ => destruct e as [[r0 rt] Lx] eqn:Ea end.
  assert (Lx = L') by (destruct r0 as [|[]]; inversion E; reflexivity). subst Lx.
  intros id. refine (at_dir_lists store _ now NoCreate _ _ _ [] _ _ _ _ _ (tidy_ok _ _ _ Ti) T Ea id). clear id.
  intros d L x d' Ld Td Ek. eapply delete_lists; exact Ek.
Qed.
End Builder.
