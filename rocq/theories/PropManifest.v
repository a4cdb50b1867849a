(** C28: the manifest builder maintains a correct directory tree
    (manifest/manifest_builder.cc). *)
From Verif Require Import Base ListX Str ModelText ModelChunkMap ModelProvider ModelAsset ModelManifest SpecManifest ProofManifest ProofTree.
Local Open Scope N_scope.

Section Create.
Context (store : cid -> option (list asset)).

(** GetOrCreateAsset follows the documented rules ([create_result]); if it succeeds
    the tree is the one that [after_create] describes, if it fails the tree is
    unchanged.  The only other failure is a list that cannot be read. *)
Theorem C28_create : forall now p ty force f b r b',
  btidy store now b -> (forall i, i_type (f i) = i_type i) -> get_or_create store now p ty force f b = (r, b') ->
  (forall now', btidy store now' b') /\ (bavailable store now b -> forall now', bavailable store now' b') /\
  let v := bview store now b in
  match r with
  | inr created => create_result v (split_unix p) ty force = inr created /\
      forall now' q, bview store now' b' q = after_create now v (split_unix p) ty f q
  | inl e => (create_result v (split_unix p) ty force = inl e \/ e = EOther /\ ~ bavailable store now b) /\
      forall now' q, bview store now' b' q = v q
  end.
Proof.
  intros now p ty force f b r b' (T & Ti) Hf E. unfold get_or_create in E.
  assert (E' : create_parts store now (split_unix p) ty force f (mkb (Some (root_of now b)) (b_lists b)) = (r, b')) by exact E.
  apply (create_spec store (owned store (b_lists b) (root_of now b)) (owned_fun store _ _ Ti)) in E'; auto using tidy_ok, split_loop_nonempty.
  - destruct E' as (root' & L' & -> & S & R). split; [|split].
    + intros now'. split; [apply S|]. exact (step_tidy store _ _ _ _ Ti S).
    + intros A now'. exact (step_available store _ _ _ _ Ti S A).
    + destruct r as [e|c]; destruct R as (V & R); split; auto. destruct R as [(-> & M)|R]; [right|now left]. split; [reflexivity|].
      eapply missing_not_available; exact M.
  - apply split_loop_nonempty.
Qed.

(** DeleteAsset removes the asset at the path and everything below it, and nothing
    else; it also succeeds if there is no such asset, but not for the root. *)
Theorem C28_delete : forall now p b r b',
  btidy store now b -> delete_asset store now p b = (r, b') ->
  btidy store now b' /\ (bavailable store now b -> bavailable store now b') /\
  let v := bview store now b in
  match r with
  | None => split_unix p <> [] /\ forall q, bview store now b' q = after_delete v (split_unix p) q
  | Some e => (split_unix p = [] \/ e = EOther /\ ~ bavailable store now b) /\ forall q, bview store now b' q = v q
  end.
Proof.
  intros now p b r b' (T & Ti) E. unfold delete_asset in E.
  destruct (path_nil_dec (split_unix p)) as [Z|Z].
  { rewrite Z in E. inversion E; subst. split; [now split|]. split; [auto|]. split; [now left|auto]. }
  assert (E' : delete_parts store now (split_unix p) (mkb (Some (root_of now b)) (b_lists b)) = (r, b')).
  { unfold delete_parts in *. destruct (split_unix p); [congruence|exact E]. }
  apply (delete_parts_spec store (owned store (b_lists b) (root_of now b)) (owned_fun store _ _ Ti)) in E'; auto using tidy_ok.
  destruct E' as (root' & L' & -> & S & R). split; [|split].
  - split; [apply S|]. exact (step_tidy store _ _ _ _ Ti S).
  - intros A. exact (step_available store _ _ _ _ Ti S A).
  - destruct r as [e|]; destruct R as (V & R); split; auto. destruct R as [(-> & M)|(R & _)]; [right|now left]. split; [reflexivity|].
    eapply missing_not_available; exact M.
Qed.

(** After any history of operations (each at its own time) on a tree all of whose
    lists can be read, the contents are those of the specification. *)
Theorem C28_history : forall (ops : list (N * op)) root L now,
  let b := mkb (Some root) L in
  btidy store now b -> bavailable store now b -> Forall (fun o => proper_op (snd o)) ops ->
  let b' := fold_left (fun b o => run_op store (fst o) (snd o) b) ops b in
  btidy store now b' /\ bavailable store now b' /\
  forall q, bview store now b' q = fold_left (fun v o => spec_op (fst o) (snd o) v) ops (bview store now b) q.
Proof.
  intros ops root L now b. subst b.
  assert (G : forall ops root L (w : path -> option info), Forall (fun o => proper_op (snd o)) ops ->
    btidy store now (mkb (Some root) L) -> bavailable store now (mkb (Some root) L) ->
    (forall q, bview store now (mkb (Some root) L) q = w q) ->
    let b' := fold_left (fun b o => run_op store (fst o) (snd o) b) ops (mkb (Some root) L) in
    btidy store now b' /\ bavailable store now b' /\ forall q, bview store now b' q = fold_left (fun v o => spec_op (fst o) (snd o) v) ops w q).
  2: { intros T A P. apply G; auto. }
  clear. induction ops as [|[t o] ops IH]; intros root L w P T A V; [now cbn|]. inversion P as [|? ? Po P']; subst. cbn [fold_left fst snd] in *.
  assert (Ext : forall (v v' : path -> option info), (forall q, v q = v' q) -> forall q, spec_op t o v q = spec_op t o v' q).
  { clear. intros v v' E q. destruct o as [p ty force f|p]; cbn.
    - assert (EK : kept v (split_unix p) ty = kept v' (split_unix p) ty) by (unfold kept; now rewrite E).
      assert (EB : blocked v (split_unix p) = blocked v' (split_unix p)).
      { unfold blocked. induction (parents (split_unix p)) as [|x l IHl]; [reflexivity|]. cbn. now rewrite E, IHl. }
      assert (ER : create_result v (split_unix p) ty force = create_result v' (split_unix p) ty force).
      { unfold create_result. destruct (split_unix p) eqn:Z; [reflexivity|]. rewrite <- Z in *. now rewrite EB, EK, E. }
      rewrite ER. destruct (create_result v' (split_unix p) ty force); [apply E|]. unfold after_create. now rewrite EK, !E.
    - destruct (split_unix p) eqn:Z; [apply E|]. unfold after_delete. now rewrite E. }
  set (b0 := mkb (Some root) L) in *.
  assert (H : exists root1 L1, run_op store t o b0 = mkb (Some root1) L1 /\ btidy store now (mkb (Some root1) L1) /\ bavailable store now (mkb (Some root1) L1) /\
    forall q, bview store now (mkb (Some root1) L1) q = spec_op t o w q).
  { assert (T0 : btidy store t b0) by exact T. assert (A0 : bavailable store t b0) by exact A. assert (V0 : forall q, bview store t b0 q = w q) by exact V.
    destruct o as [p ty force f|p]; cbn [run_op proper_op] in *.
    - destruct (get_or_create store t p ty force f b0) as [r b1] eqn:E. pose proof (C28_create t p ty force f b0 r b1 T0 Po E) as (T1 & A1 & R). cbn [snd].
      assert (B : exists root1 L1, b1 = mkb (Some root1) L1).
      { unfold get_or_create, create_parts in E. destruct (at_dir _ _ _ _ _ _ _) as [[[x|x] rt] Lx]; inversion E; eauto. }
      destruct B as (root1 & L1 & ->). exists root1, L1. split; [reflexivity|]. split; [apply T1|]. split; [now apply A1|].
      intros q. rewrite <- (Ext _ _ V0 q). cbn [spec_op]. destruct r as [e|c]; destruct R as (R1 & R2).
      + destruct R1 as [R1|(_ & R1)]; [|contradiction]. rewrite R1. apply R2.
      + rewrite R1. apply R2.
    - destruct (delete_asset store t p b0) as [r b1] eqn:E. pose proof (C28_delete t p b0 r b1 T0 E) as (T1 & A1 & R). cbn [snd].
      assert (B : exists root1 L1, b1 = mkb (Some root1) L1).
      { unfold delete_asset, delete_parts in E. destruct (split_unix p); [inversion E; unfold b0; eauto|].
        destruct (at_dir _ _ _ _ _ _ _) as [[[x|[]] rt] Lx]; inversion E; eauto. }
      destruct B as (root1 & L1 & ->). exists root1, L1. split; [reflexivity|]. split; [apply T1|]. split; [now apply A1|].
      intros q. rewrite <- (Ext _ _ V0 q). cbn [spec_op]. destruct r as [e|]; destruct R as (R1 & R2).
      + destruct R1 as [R1|(_ & R1)]; [|contradiction]. rewrite R1. apply R2.
      + destruct (split_unix p) eqn:Z; [contradiction|]. rewrite <- Z in *. apply R2. }
  destruct H as (root1 & L1 & E1 & T1 & A1 & V1). rewrite E1. apply IH; auto.
Qed.

(** What this means for a single successful call: the asset is there with the
    requested type, its parents are directories, assets elsewhere are unchanged. *)
Theorem C28_create_effect : forall now p ty force f b created b',
  btidy store now b -> (forall i, i_type (f i) = i_type i) -> get_or_create store now p ty force f b = (inr created, b') ->
  let v := bview store now b in let v' := bview store now b' in let ps := split_unix p in
  (exists i, v' ps = Some i /\ (ty <> TUnknown -> i_type i = ty)) /\
  (forall q, In q (parents ps) -> is_dir (v' q) = true /\ (is_dir (v q) = true -> v' q = v q)) /\
  (forall q, is_prefix q ps = false -> is_prefix ps q = false -> v' q = v q) /\
  (forall q, q <> ps -> is_prefix ps q = true -> created = false -> v' q = v q) /\
  (forall q, q <> ps -> is_prefix ps q = true -> created = true -> v' q = None) /\
  (created = true <-> kept v ps ty = false).
Proof.
  intros now p ty force f b created b' T Hf E v v' ps. pose proof (C28_create now p ty force f b _ b' T Hf E) as (T' & _ & CR & V). cbv zeta in *. fold v ps in CR, V.
  assert (V' : forall q, v' q = after_create now v ps ty f q) by (intros; apply V). clear V.
  assert (Root : v [] = Some (a_info (root_of now b))) by reflexivity.
  assert (CK : created = true <-> kept v ps ty = false).
  { unfold create_result in CR. destruct ps as [|n r] eqn:Z.
    - destruct (type_eqb ty TDir || type_eqb ty TUnknown) eqn:K; [|discriminate]. inversion CR; subst. unfold kept. rewrite Root. destruct T as (T & _).
      unfold a_type in T. rewrite T. split; [discriminate|]. intros X. destruct ty; cbn in *; congruence.
    - destruct (blocked v (n :: r) && _); [discriminate|]. destruct (kept v (n :: r) ty) eqn:K; [inversion CR; split; congruence|].
      destruct (v (n :: r)); [destruct force|destruct (type_eqb ty TUnknown)]; inversion CR; split; congruence. }
  assert (EqR : path_eqb ps ps = true) by (now apply path_eqb_eq).
  split; [|split; [|split; [|split; [|split; [|exact CK]]]]].
  - rewrite V'. unfold after_create. rewrite EqR. eexists. split; [reflexivity|]. intros U. rewrite Hf. destruct (v ps) as [i|] eqn:Z; [|reflexivity].
    destruct (kept v ps ty) eqn:K; [|reflexivity]. unfold kept in K. rewrite Z in K. destruct (type_eqb ty TUnknown) eqn:Y; [now apply type_eqb_eq in Y|]. now apply type_eqb_eq in K.
  - intros q I. unfold parents in I. apply in_map_iff in I. destruct I as (k & <- & I). apply List.in_seq in I.
    assert (P1 : is_prefix (firstn k ps) ps = true) by (apply is_prefix_spec; exists (skipn k ps); now rewrite firstn_skipn).
    assert (P2 : path_eqb (firstn k ps) ps = false).
    { destruct (path_eqb (firstn k ps) ps) eqn:X; [|reflexivity]. apply path_eqb_eq in X. apply (f_equal (@length _)) in X. rewrite firstn_length in X. lia. }
    rewrite V'. unfold after_create. rewrite P1, P2. destruct (is_dir (v (firstn k ps))) eqn:D; [auto|]. split; [reflexivity|congruence].
  - intros q P1 P2. rewrite V'. unfold after_create, path_eqb. now rewrite P1, P2.
  - intros q N P C. rewrite V'. unfold after_create. assert (P2 : path_eqb q ps = false) by (destruct (path_eqb q ps) eqn:X; [now apply path_eqb_eq in X|reflexivity]).
    assert (P3 : is_prefix q ps = false). { destruct (is_prefix q ps) eqn:X; [|reflexivity]. unfold path_eqb in P2. now rewrite X, P in P2. }
    rewrite P2, P3, P. destruct (kept v ps ty) eqn:K; [reflexivity|]. destruct CK as (_ & CK). rewrite CK in C by reflexivity. discriminate.
  - intros q N P C. rewrite V'. unfold after_create. assert (P2 : path_eqb q ps = false) by (destruct (path_eqb q ps) eqn:X; [now apply path_eqb_eq in X|reflexivity]).
    assert (P3 : is_prefix q ps = false). { destruct (is_prefix q ps) eqn:X; [|reflexivity]. unfold path_eqb in P2. now rewrite X, P in P2. }
    rewrite P2, P3, P. apply CK in C. now rewrite C.
Qed.

(** A new builder, and a builder after LoadManifest, have a tidy tree. *)
Theorem C28_new_builder : forall now L, btidy store now (mkb None L) /\ bavailable store now (mkb None L) /\
  forall q, bview store now (mkb None L) q = match q with [] => Some (new_info now TDir) | _ => None end.
Proof.
  intros now L. assert (O : ok_at store (fun _ _ => False) L [] (new_asset now [] TDir)) by (apply ok_leaf; reflexivity).
  split; [split; [reflexivity|]|split].
  - eapply ok_tidy; [|exact O]. intros ? ? ? [].
  - intros p b id N T I. exfalso. apply (missing_leaf store L (new_asset now [] TDir)); try reflexivity.
    destruct p as [|n p]; [inversion N; subst; destruct I|]. cbn in N. discriminate.
  - intros [|n q]; [reflexivity|]. unfold bview. cbn [root_of b_root]. apply view_leaf; reflexivity.
Qed.

Theorem C28_loaded_builder : forall store_root id r now,
  store_root id = Some r -> a_type r = TDir ->
  (forall p b, node store (fun _ => None) r p = Some b -> a_type b = TDir -> NoDup (map a_name (children store (fun _ => None) b)) /\ NoDup (a_ind b)) ->
  (forall p q b c x, node store (fun _ => None) r p = Some b -> node store (fun _ => None) r q = Some c -> a_type b = TDir -> a_type c = TDir -> In x (a_ind b) -> In x (a_ind c) -> p = q) ->
  exists b, load_manifest store_root id = Some b /\ btidy store now b /\ forall q, bview store now b q = view store (fun _ => None) r q.
Proof.
  intros sr id r now E T N U. unfold load_manifest. rewrite E. eexists. split; [reflexivity|]. split; [|reflexivity]. split; [exact T|]. cbn. constructor.
  - intros p b Nb Tb. apply (N p b Nb Tb).
  - intros p b Nb Tb. apply (N p b Nb Tb).
  - exact U.
  - reflexivity.
Qed.

(** Paths: components are non-empty and free of separators; both separators are
    accepted, and repeated, leading and trailing ones are ignored. *)
Theorem C28_path_components : forall s, Forall (fun n => n <> [] /\ ~ In 47 n /\ ~ In 92 n) (split_unix s).
Proof.
  intros s. pose proof (split_loop_nonempty (to_unix s) []) as A.
  assert (B : Forall (fun n => ~ In 47 n /\ ~ In 92 n) (split_unix s)) by (apply split_loop_free; auto; apply to_unix_free).
  unfold split_unix in *. rewrite Forall_forall in *. intros n I. split; [now apply A|now apply B].
Qed.
Theorem C28_path_separators : forall c a b, c = 47 \/ c = 92 -> split_unix (a ++ c :: b) = split_unix a ++ split_unix b.
Proof. intros c a b C. now apply split_loop_app. Qed.
Theorem C28_path_single : forall n, n <> [] -> ~ In 47 n -> ~ In 92 n -> split_unix n = [n].
Proof. intros n N A B. unfold split_unix. rewrite split_loop_one by assumption. cbn. now destruct n. Qed.
End Create.

(** A concrete history: a/b/c is created as a file, a/b is replaced by a symlink,
    and x is created next to it; then a is deleted. *)
Definition ex_store : cid -> option (list asset) := fun _ => None.
Definition ex_b0 : builder := mkb (Some (new_asset 1 [] TDir)) (fun _ => None).
Definition ex_ops : list (N * op) :=
  [(2, OCreate [97; 47; 98; 47; 99] TFile false (fun i => i)); (3, OCreate [97; 92; 98] TSymlink true (fun i => i)); (4, OCreate [47; 120] TDir false (fun i => i))].
Definition ex_b1 := fold_left (fun b o => run_op ex_store (fst o) (snd o) b) ex_ops ex_b0.
Example C28_example_history :
  btidy ex_store 1 ex_b0 /\ bavailable ex_store 1 ex_b0 /\ Forall (fun o => proper_op (snd o)) ex_ops /\
  map (fun q => option_map i_type (bview ex_store 1 ex_b1 q)) [[]; [[97]]; [[97]; [98]]; [[97]; [98]; [99]]; [[120]]] =
    [Some TDir; Some TDir; Some TSymlink; None; Some TDir] /\
  map (fun q => option_map i_type (bview ex_store 1 (run_op ex_store 5 (ODelete [97]) ex_b1) q)) [[]; [[97]]; [[97]; [98]]; [[120]]] =
    [Some TDir; None; None; Some TDir].
Proof.
  destruct (C28_new_builder ex_store 1 (fun _ => None)) as (A & B & _).
  split; [exact A|]. split; [exact B|]. split; [repeat constructor|]. split; vm_compute; reflexivity.
Qed.

(** A tidy tree with loaded and unloaded lists: directory d holds its only file in
    the list [1]. *)
Definition ex_store2 : cid -> option (list asset) := fun id => if list_eq_dec N.eq_dec id [1] then Some [new_asset 7 [102] TFile] else None.
Definition ex_root2 : asset := Asset [] (new_info 1 TDir) [Asset [100] (new_info 1 TDir) [] [[1]]] [].
Example C28_example_indirect : btidy ex_store2 1 (mkb (Some ex_root2) (fun _ => None)) /\ bavailable ex_store2 1 (mkb (Some ex_root2) (fun _ => None)) /\
  option_map i_type (bview ex_store2 1 (run_op ex_store2 5 (OCreate [100; 47; 103] TFile false (fun i => i)) (mkb (Some ex_root2) (fun _ => None))) [[100]; [102]]) = Some TFile /\
  fst (get_or_create ex_store2 5 [100; 47; 102] TDir false (fun i => i) (mkb (Some ex_root2) (fun _ => None))) = inl EExists.
Proof.
  assert (Dirs : forall p b, node ex_store2 (fun _ => None) ex_root2 p = Some b -> a_type b = TDir ->
    p = [] /\ b = ex_root2 \/ p = [[100]] /\ b = Asset [100] (new_info 1 TDir) [] [[1]]).
  { intros [|n p] b N T; [left; now inversion N|]. cbn in N. unfold name_eqb in N. destruct (list_eq_dec N.eq_dec [100] n) as [<-|]; [|discriminate].
    destruct p as [|m p]; cbn in N; [right; inversion N; auto|]. unfold name_eqb in N. destruct (list_eq_dec N.eq_dec [102] m); [|discriminate].
    destruct p as [|k p]; cbn in N; [|discriminate]. inversion N; subst. discriminate T. }
  split; [|split].
  - split; [reflexivity|]. cbn. constructor.
    + intros p b N T. destruct (Dirs p b N T) as [(_ & ->)|(_ & ->)]; cbn; repeat constructor; auto.
    + intros p b N T. destruct (Dirs p b N T) as [(_ & ->)|(_ & ->)]; cbn; repeat constructor; auto.
    + intros p q b c id N M T U I J. destruct (Dirs p b N T) as [(-> & ->)|(-> & ->)], (Dirs q c M U) as [(-> & ->)|(-> & ->)]; auto; cbn in *; tauto.
    + reflexivity.
  - intros p b id N T I. right. cbn in N. destruct (Dirs p b N T) as [(_ & ->)|(_ & ->)]; cbn in I; [tauto|]. destruct I as [<-|[]]. discriminate.
  - split; vm_compute; reflexivity.
Qed.
